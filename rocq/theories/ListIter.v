(** Proofs about iterators over Lists. *)
From Coq Require Import ZArith List Bool Ascii Lia.
From Verif Require Import Outcome ListModel ListSpec ListFacts ListMore ListProgModel ListProgSpec ListProg ListRefModel ListRefSpec ListRef
  ListIterModel ListIterSpec.
Import ListNotations.
Open Scope Z_scope.

Section Iter.
Context {T : Type} (eqb lt : T -> T -> bool) (show : T -> list ascii) (d : T) (grow : Z -> Z -> Z).
Hypothesis (D : decides eqb) (W : strict_weak lt).
Implicit Types (h : vstate T) (s : lstore T) (t : jstate T) (K : nat -> Z) (P : nat -> lptr) (I : nat -> lcur).
Notation step := (lstep eqb lt show d).
Notation spec := (sstep eqb lt show).
Notation jstp := (j_step eqb lt show d grow).
Notation js := (jstep eqb lt show grow).
Notation jd := (j_do eqb lt show d grow).

Definition done_op (c : lstmt T) s s' (ev : list (levent T)) : vop := if threw ev then ONone else vop_of eqb c s s'.

(** ** What a statement does to the ends *)

Definition op_agrees (f : fate) (o : vop) s s' : Prop :=
  match f with
  | Stay => (forall g u, lends o g u = g u) /\ forall u, length (s' u) = length (s u)
  | Cut v k => (forall g u, lends o g u = if Nat.eqb u v then Datatypes.S (g u) else g u) /\ (k <= length (s v))%nat /\
               forall u, u <> v -> s' u = s u
  | Given v w => o = OMove v w /\ v <> w /\ forall u, u <> v -> u <> w -> s' u = s u
  end.

Lemma bumped : forall g v u, vset g v (Datatypes.S (g v)) u = if Nat.eqb u v then Datatypes.S (g u) else g u.
Proof. intros g v u. unfold vset. destruct (Nat.eqb_spec u v); subst; auto. Qed.

Lemma cut_agrees : forall c s s' v k, (forall u, u <> v -> s' u = s u) -> (k <= length (s v))%nat ->
  match vop_of eqb c s s' with OInsert u _ _ | OErase u _ | OReplace u | OCopy u => u = v | _ => False end ->
  op_agrees (Cut v k) (vop_of eqb c s s') s s'.
Proof.
  intros c s s' v k F L M. split; [|auto]. intros g u. destruct (vop_of eqb c s s'); try contradiction; subst; apply bumped.
Qed.

Lemma grown_cut : forall v k l n K f K', grown grow v k l n K f K' -> exists m, f = Cut v m /\ (m <= k)%nat.
Proof. intros v k l n K f K' []; eexists; split; eauto; lia. Qed.

Ltac inv_spec H := inversion H; subst;
  try (match goal with X : copying _ _ _ _ |- _ => inversion X end);
  try (match goal with X : False |- _ => destruct X end);
  try (match goal with X : mut _ _ _ _ _ _ |- _ => rename X into MU end).

Lemma agrees : forall c s s' ev K f K', sized s -> int_stmt c -> spec c s s' ev -> effect grow c s s' ev K f K' ->
  op_agrees f (done_op c s s' ev) s s'.
Proof.
  intros c s s' ev K f K' Z A H F. unfold done_op.
  pose proof (complete _ _ _ d D W c s s' ev Z A H) as R.
  assert (FR : forall u, ~ writes c u -> s' u = s u) by (intros; eapply step_frame; eauto).
  assert (SZ : forall v, size (s v) = len (s v)) by (intros; apply size_ok; apply Z).
  destruct F.
  - cbn [threw]. split; [auto|]. intros u. erewrite (throw_same eqb lt show); eauto.
  - assert (X : forall u, s' u = s u) by (intros u; apply FR; destruct c; cbn [writes]; auto; contradiction).
    split; [|intros u; rewrite X; auto]. destruct (threw ev); [auto|]. destruct c; try contradiction; auto.
  - cbn [threw]. pose proof (values_len eqb lt show c s s') as V.
    split; [destruct c; try contradiction; auto|]. intros u.
    destruct c; try contradiction; (destruct (Nat.eq_dec u v) as [->|N]; [apply V; auto|rewrite FR; auto]).
  - cbn [threw].
    assert (X : forall u, u <> v -> s' u = s u).
    { intros u N. apply FR. destruct c; try contradiction; subst; cbn [writes]; auto. }
    eapply (cut_agrees c s s' v 0); auto; [lia|]. destruct c; try contradiction; subst; reflexivity.
  - cbn [threw]. apply (cut_agrees (LCopy v w) s s' v 0); auto; [lia|]. cbn [vop_of]. destruct (Nat.eqb_spec v w); [contradiction|auto].
  - cbn [threw vop_of]. rewrite Nat.eqb_refl. split; [auto|]. inv_spec H. intros u. rewrite lset_same. destruct (Nat.eqb_spec u v); congruence.
  - cbn [threw vop_of]. inv_spec H. split; auto. split; auto. intros u Nu Nw. rewrite !lset_other; auto.
  - cbn [threw]. destruct (grown_cut _ _ _ _ _ _ _ H0) as (m & -> & L). inv_spec H. destruct (insert_len eqb lt _ _ _ _ _ MU) as (_ & B & _).
    eapply cut_agrees; [intros u N; apply lset_other; auto| |reflexivity]. unfold len in B. lia.
  - cbn [threw]. destruct (grown_cut _ _ _ _ _ _ _ H0) as (m & -> & L). inv_spec H. inversion MU; subst.
    match goal with X : mut _ _ (LInsert _ _ _) _ _ _ |- _ => destruct (insert_len eqb lt _ _ _ _ _ X) as (_ & B & _) end.
    eapply cut_agrees; [intros u N; apply lset_other; auto| |reflexivity]. unfold len in B. lia.
  - cbn [threw]. destruct (grown_cut _ _ _ _ _ _ _ H0) as (m & -> & L). eapply cut_agrees; [auto|lia|reflexivity].
  - cbn [threw]. destruct (grown_cut _ _ _ _ _ _ _ H0) as (m & -> & L). eapply cut_agrees; [auto|lia|reflexivity].
  - cbn [threw]. destruct (grown_cut _ _ _ _ _ _ _ H1) as (m & -> & L).
    apply cut_agrees; [auto|lia|]. cbn [vop_of].
    rewrite !SZ. unfold len at 1 2. destruct (Z.leb_spec (Z.of_nat (length (s w))) (INT_MAX - Z.of_nat (length (s v)))); [auto|lia].
  - cbn [threw vop_of]. rewrite !SZ. unfold len at 1 2. destruct (Z.leb_spec (Z.of_nat (length (s w))) (INT_MAX - Z.of_nat (length (s v)))); [lia|].
    split; [auto|]. inv_spec H; [lia|auto].
  - cbn [threw]. destruct (position_back _ _ _ H0) as (_ & L). eapply cut_agrees; [auto|lia|reflexivity].
  - cbn [threw]. apply cut_agrees; [auto|rewrite H0, app_length; lia|]. cbn [vop_of].
    rewrite H0, (find_first eqb D) by auto. rewrite app_length. cbn [length].
    destruct (Nat.eqb_spec (length a) (length a + Datatypes.S (length b))); [lia|auto].
  - cbn [threw vop_of]. rewrite (find_none eqb D) by auto. rewrite Nat.eqb_refl. split; [auto|].
    inv_spec H. destruct (sub_inv eqb lt _ _ _ _ MU) as [(p & q & E & N & ->)|(N & ->)].
    + destruct H0. rewrite E. apply in_or_app. right. left. auto.
    + intros u. rewrite lset_same. match goal with |- context [Nat.eqb ?a ?b] => destruct (Nat.eqb_spec a b); congruence end.
  - cbn [threw]. inv_spec H. inversion MU; subst. match goal with X : s _ = _ ++ _ ++ _ |- _ => rename X into Ea end.
    eapply cut_agrees; [intros u N; apply lset_other; auto|rewrite Ea, app_length; lia|reflexivity].
  - cbn [threw]. pose proof (filter_len _ (fun y => negb (eqb y x)) (s v)) as B. unfold len in B. inv_spec H. inversion MU; subst. rewrite lset_eq.
    eapply cut_agrees; [intros u N; apply lset_other; auto|lia|reflexivity].
  - cbn [threw]. pose proof (filter_len _ p (s v)) as B. unfold len in B. inv_spec H. inversion MU; subst. rewrite lset_eq.
    eapply cut_agrees; [intros u N; apply lset_other; auto|lia|reflexivity].
  - cbn [threw]. eapply cut_agrees; [auto|lia|reflexivity].
Qed.

(** ** The owners *)
Lemma in_old : forall h s K P v a, vstands h s K P -> In a (va h v) -> (a < vn h)%nat.
Proof. intros h s K P v a S N. apply (vs_old _ _ _ _ S). eapply vs_live; eauto. Qed.

Lemma owners_place : forall h s K P own v k (xs : list T) o, vstands h s K P -> (forall v a, In a (va h v) -> own a = v) ->
  made_in o = v -> (forall x y, o <> OMove x y) ->
  forall u a, In a (va (place v k xs h) u) -> lowners o h own a = u.
Proof.
  intros h s K P own v k xs o S O M N u a X. rewrite va_place in X. unfold lowners.
  assert (OLD : forall u, In a (va h u) -> (if Nat.leb (vn h) a then made_in o else match o with OMove v w => if among (va h w) a then v else own a | _ => own a end) = u).
  { intros w J. pose proof (in_old _ _ _ _ _ _ S J). destruct (Nat.leb_spec (vn h) a); [lia|].
    destruct o; try (apply O; auto). destruct (N v0 w0). auto. }
  destruct (Nat.eqb_spec u v) as [->|Nu]; [|apply OLD; auto].
  unfold news in X. apply in_app_or in X. destruct X as [X|X]; [apply OLD; eapply in_firstn; eauto|].
  apply in_seq in X. destruct (Nat.leb_spec (vn h) a); [auto|lia].
Qed.

Lemma owners_ok : forall o h s K P own s', vstands h s K P -> (forall v a, In a (va h v) -> own a = v) ->
  forall u a, In a (va (apply grow o s' h) u) -> lowners o h own a = u.
Proof.
  intros o h s K P own s' S O u a X. destruct o; cbn [apply] in X; try (eapply owners_place; [eauto|eauto| | |first [exact X|cbn [set_room va] in X; exact X]]; [reflexivity|discriminate]).
  - unfold lowners. pose proof (in_old _ _ _ _ _ _ S X). destruct (Nat.leb_spec (vn h) a); [lia|]. apply O. auto.
  - destruct (_ <=? _); [|cbn [set_room va] in X]; eapply owners_place; eauto; try discriminate.
  - unfold lowners. cbn [va] in X. unfold vset in X. destruct (Nat.eqb_spec u w) as [->|Nw]; [destruct X|].
    destruct (Nat.eqb_spec u v) as [->|Nv].
    + pose proof (in_old _ _ _ _ _ _ S X). destruct (Nat.leb_spec (vn h) a); [lia|]. apply among_In in X. rewrite X. auto.
    + pose proof (in_old _ _ _ _ _ _ S X). destruct (Nat.leb_spec (vn h) a); [lia|].
      destruct (among (va h w) a) eqn:E; [|apply O; auto]. apply among_In in E.
      apply In_nth_error in E. destruct E as (i & E). apply In_nth_error in X. destruct X as (j & X).
      destruct (vs_one _ _ _ _ S _ _ _ _ _ E X). congruence.
Qed.

Lemma lends_mono : forall o (g : nat -> nat) u, (g u <= lends o g u)%nat.
Proof.
  intros o g u. destruct o; cbn [lends]; auto; try (rewrite bumped; destruct (Nat.eqb u v); lia).
  destruct (Nat.eqb u v || Nat.eqb u w); lia.
Qed.

(** ** Statements without iterators *)
Theorem jdo_ok : forall c t s K I s' ev f K' I', jstands t s K I -> int_stmt c -> spec c s s' ev -> effect grow c s s' ev K f K' -> moved f s I I' ->
  exists t', jd c t = Ok (t', ev) /\ jstands t' s' K' I'.
Proof.
  intros c t s K I s' ev f K' I' ((P & S & C) & O) A H F M.
  pose proof (vs_sized _ _ _ _ S) as Z.
  pose proof (agrees _ _ _ _ _ _ _ Z A H F) as AG.
  destruct (do_ok eqb lt show d grow D W c (jh t) s K P s' ev f K' _ S A H F (meets_total f P)) as (h' & R & S').
  pose proof (complete _ _ _ d D W c s s' ev Z A H) as RS.
  destruct (step_ext eqb lt show d c s (lview (jh t)) s' ev) as (s2 & R2 & E2); auto; [intros u; symmetry; apply S|].
  unfold v_do in R. unfold j_do. rewrite R2 in *. 
  assert (OP : vop_of eqb c (lview (jh t)) s2 = vop_of eqb c s s').
  { apply vop_ext; [apply S|]. intros u; symmetry; apply E2. }
  rewrite OP in *. fold (done_op c s s' ev).
  assert (HH : apply grow (done_op c s s' ev) s2 (jh t) = h').
  { unfold done_op. inversion R. destruct (threw ev); auto. }
  rewrite HH. eexists. split; [reflexivity|]. split.
  - eexists. cbn [jh je jg]. split; [exact S'|]. intros i. specialize (C i). specialize (M i).
    assert (LT : forall u p, (fun r => move_ptr f (P r)) i = LTo u p -> (p < length (s' u))%nat).
    { intros u p E. pose proof (vs_ptr _ _ _ _ S' i) as Q. cbv beta in Q, E. rewrite E in Q. destruct Q as (a & _ & Q).
      rewrite <- (stands_len _ _ _ _ u S'). apply nth_error_Some. congruence. }
    cbv beta in *.
    destruct (I i) as [|u p|].
    + rewrite M. destruct C as (-> & ->). auto.
    + destruct C as [(L & C1 & C2)|(-> & C1 & C2)]; rewrite C1 in *; cbn [move_ptr] in *.
      * destruct f as [|v k|v w].
        -- rewrite M. left. auto.
        -- destruct M as [(-> & M1 & ->)|(M1 & ->)].
           ++ left. rewrite Nat.eqb_refl. destruct (Nat.leb_spec k p); [auto|lia].
           ++ left. destruct (Nat.eqb_spec u v), (Nat.leb_spec k p); cbn [andb] in *; auto; try lia.
        -- destruct M as [(-> & ->)|[(-> & M1 & M2 & ->)|[(-> & M1 & M2 & ->)|(M1 & M2 & ->)]]].
           ++ rewrite Nat.eqb_refl. auto.
           ++ left. destruct (Nat.eqb_spec w v); [contradiction|]. rewrite Nat.eqb_refl in *. auto.
           ++ lia.
           ++ left. destruct (Nat.eqb_spec u v); [contradiction|]. destruct (Nat.eqb_spec u w); [contradiction|]. auto.
      * destruct f as [|v k|v w]; cbn [op_agrees] in AG.
        -- destruct AG as (G & L). rewrite M. right. rewrite L, G. auto.
        -- destruct AG as (G & L & X). destruct M as [(-> & M1 & ->)|(M1 & ->)].
           ++ right. split; auto. do 2 eexists. split; [exact C2|]. rewrite G, Nat.eqb_refl. lia.
           ++ right. destruct (Nat.eq_dec u v) as [->|N]; [lia|]. rewrite X, G by auto. destruct (Nat.eqb_spec u v); [contradiction|]. auto.
        -- destruct AG as (G & N & X). rewrite G. cbn [lends]. destruct M as [(-> & ->)|[(-> & M1 & M2 & ->)|[(-> & M1 & M2 & ->)|(M1 & M2 & ->)]]].
           ++ right. split; auto. do 2 eexists. split; [exact C2|]. rewrite Nat.eqb_refl. cbn [orb]. lia.
           ++ lia.
           ++ right. split; auto. do 2 eexists. split; [exact C2|]. rewrite Nat.eqb_refl, orb_true_r. lia.
           ++ right. rewrite X by auto. destruct (Nat.eqb_spec u v); [contradiction|]. destruct (Nat.eqb_spec u w); [contradiction|]. auto.
    + rewrite M. destruct C as [(-> & C)|(-> & v & n & C & L)]; [left; auto|right]. split; auto. exists v, n. split; auto.
      pose proof (lends_mono (done_op c s s' ev) (jg t) v). lia.
  - cbn [jh jo]. intros v a X. rewrite <- HH in X. eapply owners_ok; eauto.
Qed.

Definition move_cur (f : fate) s (x : lcur) : lcur :=
  match x with
  | CAt u p =>
      match f with
      | Stay => x
      | Cut v k => if Nat.eqb u v && Nat.leb k p then CDead else x
      | Given v w => if Nat.eqb u v then CDead else if Nat.eqb u w then (if Nat.ltb p (length (s w)) then CAt v p else CDead) else x
      end
  | _ => x
  end.
Lemma moved_total : forall f s I, moved f s I (fun i => move_cur f s (I i)).
Proof.
  intros f s I i. destruct (I i) as [|u p|]; cbn [move_cur]; auto. destruct f as [|v k|v w]; auto.
  - destruct (Nat.eqb_spec u v), (Nat.leb_spec k p); cbn [andb]; auto; right; split; auto; lia.
  - destruct (Nat.eqb_spec u v); auto. right. destruct (Nat.eqb_spec u w).
    + destruct (Nat.ltb_spec p (length (s w))); auto. right. left. auto.
    + auto.
Qed.
Lemma jstmt_total : forall c s K I s' ev, spec c s s' ev -> exists K' I', js (JDo c) s K I s' K' I' ev.
Proof.
  intros c s K I s' ev H. destruct (effect_total eqb lt show grow c s s' ev K H) as (f & K' & F). exists K', (fun i => move_cur f s (I i)).
  econstructor; eauto. apply moved_total.
Qed.

(** ** Where an iterator is *)
Lemma jat : forall t s K I i v p, jstands t s K I -> I i = CAt v p -> j_at t i = Ok (v, p) /\ (p <= length (s v))%nat.
Proof.
  intros t s K I i v p ((P & S & C) & O) E. specialize (C i). rewrite E in C. unfold j_at.
  destruct C as [(L & C1 & ->)|(-> & C1 & ->)].
  - pose proof (vs_ptr _ _ _ _ S i) as Q. rewrite C1 in Q. destruct Q as (a & -> & N).
    pose proof (nth_error_In _ _ N) as J. rewrite (vs_live _ _ _ _ S v a J). rewrite (O v a J).
    rewrite (find_at _ p) by (auto; apply good_nodup; eapply stands_good; eauto). split; auto. lia.
  - rewrite Nat.eqb_refl, (stands_len _ _ _ _ v S). auto.
Qed.
Lemma jlost : forall t s K I i, jstands t s K I -> (forall v p, I i <> CAt v p) -> j_at t i = UB BadDeref.
Proof.
  intros t s K I i ((P & S & C) & O) E. specialize (C i). unfold j_at. destruct (I i) as [|v p|].
  - destruct C as (C1 & ->). pose proof (vs_ptr _ _ _ _ S i) as Q. rewrite C1 in Q. rewrite Q. auto.
  - destruct (E v p). auto.
  - destruct C as [(C1 & ->)|(C1 & v & n & -> & L)].
    + pose proof (vs_ptr _ _ _ _ S i) as Q. rewrite C1 in Q. destruct Q as (a & -> & -> & _). auto.
    + destruct (Nat.eqb_spec n (jg t v)); [lia|auto].
Qed.
Lemma cur_dec : forall (x : lcur), (exists v p, x = CAt v p) \/ (forall v p, x <> CAt v p).
Proof. intros [|v p|]; [right|left|right]; eauto; discriminate. Qed.

Lemma put_ok : forall t s K I I' i v p, jstands t s K I -> (p <= length (s v))%nat -> lput I i (CAt v p) I' -> jstands (j_put i v p t) s K I'.
Proof.
  intros t s K I I' i v p ((P & S & C) & O) L (Q1 & Q2). unfold j_put.
  pose proof (stands_len _ _ _ _ v S) as LN.
  destruct (nth_error (va (jh t) v) p) as [a|] eqn:E.
  - assert (B : (p < length (s v))%nat) by (rewrite <- LN; apply nth_error_Some; congruence).
    split; [|exact O]. exists (vset P i (LTo v p)). cbn [jh je jg]. split.
    + apply (bind_stands _ _ _ P _ _ (LTo v p) _ S); [|exists a; auto]. split; [apply vset_eq|]. intros q N. unfold vset. destruct (Nat.eqb_spec q i); congruence.
    + intros q. unfold vset. destruct (Nat.eqb_spec q i) as [->|N].
      * rewrite Q1. left. auto.
      * rewrite Q2 by auto. apply C.
  - apply nth_error_None in E. assert (p = length (s v)) by lia.
    split; [|exact O]. exists (vset P i LNull). cbn [jh je jg]. split.
    + apply (bind_stands _ _ _ P _ _ LNull _ S); [|reflexivity]. split; [apply vset_eq|]. intros q N. unfold vset. destruct (Nat.eqb_spec q i); congruence.
    + intros q. unfold vset. destruct (Nat.eqb_spec q i) as [->|N].
      * rewrite Q1. right. auto.
      * rewrite Q2 by auto. apply C.
Qed.
Lemma lput_total : forall I i x, exists I', lput I i x I'.
Proof.
  intros I i x. exists (vset I i x). unfold lput, vset. rewrite Nat.eqb_refl. split; auto. intros q N. destruct (Nat.eqb_spec q i); congruence.
Qed.
Lemma jview : forall t s K I v, jstands t s K I -> lview (jh t) v = s v.
Proof. intros t s K I v ((P & S & _) & _). apply S. Qed.
Lemma jsized : forall t s K I, jstands t s K I -> sized s.
Proof. intros t s K I ((P & S & _) & _). apply S. Qed.
Lemma jlen : forall t s K I v, jstands t s K I -> length (va (jh t) v) = length (s v).
Proof. intros t s K I v ((P & S & _) & _). eapply stands_len; eauto. Qed.

Lemma found_ok : forall l x p, found_at l x p -> std_find eqb l x = p.
Proof.
  intros l x p [(a & b & -> & N & ->)|(N & ->)]; [apply (find_first eqb D); auto|apply (find_none eqb D); auto].
Qed.
Lemma found_total : forall l x, found_at l x (std_find eqb l x) /\ (std_find eqb l x <= length l)%nat.
Proof.
  intros l x. induction l as [|y l (IH & IL)]; cbn [std_find length].
  - split; [right; auto|lia].
  - destruct (eqb y x) eqn:E.
    + apply D in E. subst. split; [|lia]. left. exists [], l. auto.
    + assert (y <> x) by (intros ->; rewrite (D_refl eqb D) in E; discriminate). split; [|lia].
      destruct IH as [(a & b & -> & N & IE)|(N & IE)]; rewrite IE.
      * left. exists (y :: a), b. split; auto. split; auto. intros [|]; auto.
      * right. split; auto. intros [|]; auto.
Qed.
Lemma found_len : forall (l : list T) x p, found_at l x p -> (p <= length l)%nat.
Proof. intros l x p [(a & b & -> & _ & ->)|(_ & ->)]; [rewrite app_length|]; lia. Qed.

Lemma split_at : forall (l : list T) p q, (p <= q)%nat -> (q <= length l)%nat ->
  exists a m b, l = a ++ m ++ b /\ length a = p /\ length (a ++ m) = q /\ m = firstn (q - p) (skipn p l).
Proof.
  intros l p q A B. exists (firstn p l), (firstn (q - p) (skipn p l)), (skipn (q - p) (skipn p l)).
  rewrite !firstn_skipn. split; auto. rewrite app_length, !firstn_length, skipn_length. repeat split; lia.
Qed.
Lemma split_mid : forall (a m b : list T), firstn (length (a ++ m) - length a) (skipn (length a) (a ++ m ++ b)) = m.
Proof.
  intros a m b. rewrite skipn_app, skipn_all, Nat.sub_diag. cbn [app skipn]. rewrite app_length.
  replace (length a + length m - length a)%nat with (length m + 0)%nat by lia. rewrite firstn_app_2. cbn [firstn]. apply app_nil_r.
Qed.

Theorem jstep_ok : forall c t s K I s' K' I' ev, jstands t s K I -> jint_stmt c -> js c s K I s' K' I' ev ->
  exists t', jstp c t = Ok (t', ev) /\ jstands t' s' K' I'.
Proof.
  assert (DO : forall c t s K I s' K' I' ev, jstands t s K I -> int_stmt c -> js (JDo c) s K I s' K' I' ev ->
    exists t', jd c t = Ok (t', ev) /\ jstands t' s' K' I').
  { intros c t s K I s' K' I' ev S A H. inversion H; subst. eapply jdo_ok; eauto. }
  intros c t s K I s' K' I' ev S A H. pose proof (jsized _ _ _ _ S) as Z. destruct H; cbn [j_step jint_stmt] in *.
  - eapply jdo_ok; eauto.
  - eexists. split; [reflexivity|]. eapply put_ok; eauto. lia.
  - eexists. split; [reflexivity|]. erewrite jlen by eauto. eapply put_ok; eauto.
  - eexists. split; [reflexivity|]. erewrite jview by eauto. rewrite (found_ok _ _ _ H). eapply put_ok; eauto. eapply found_len; eauto.
  - destruct (jat _ _ _ _ _ _ _ S H) as (-> & L). cbn [bind fst snd]. eexists. split; [reflexivity|]. eapply put_ok; eauto.
  - destruct (jat _ _ _ _ _ _ _ S H) as (-> & L). cbn [bind fst snd]. unfold len. erewrite jlen by eauto.
    destruct (Z.leb_spec 0 (Z.of_nat p + k)); [|lia]. destruct (Z.leb_spec (Z.of_nat p + k) (Z.of_nat (length (s v)))); [|lia]. cbn [andb].
    eexists. split; [reflexivity|]. replace (Z.to_nat (Z.of_nat p + k)) with q by lia. eapply put_ok; eauto.
  - destruct (jat _ _ _ _ _ _ _ S H) as (-> & L). cbn [bind fst snd]. unfold j_elem. erewrite jview by eauto. rewrite H0. cbn [bind]. eauto.
  - destruct (jat _ _ _ _ _ _ _ S H) as (-> & L). cbn [bind fst snd]. unfold j_elem. erewrite jview by eauto. rewrite H0. cbn [bind]. eauto.
  - destruct (jat _ _ _ _ _ _ _ S H) as (-> & _). destruct (jat _ _ _ _ _ _ _ S H0) as (-> & _). cbn [bind fst snd]. rewrite Nat.eqb_refl. eauto.
  - destruct (jat _ _ _ _ _ _ _ S H) as (-> & L). destruct (jat _ _ _ _ _ _ _ S H0) as (-> & L0). cbn [bind fst snd]. rewrite Nat.eqb_refl.
    destruct (Nat.leb_spec (length a) (length (a ++ m))) as [_|X]; [|rewrite app_length in X; lia]. cbn [andb].
    erewrite jview by eauto. rewrite H1, split_mid. eapply DO; eauto. cbn [int_stmt]. specialize (Z u). rewrite H1, !app_length in Z. lia.
  - destruct (jat _ _ _ _ _ _ _ S H) as (E & L). destruct (jat _ _ _ _ _ _ _ S H0) as (E0 & L0). rewrite E0, E. cbn [bind fst snd]. rewrite Nat.eqb_refl.
    destruct (Nat.leb_spec (length a) (length (a ++ m))) as [_|X]; [|rewrite app_length in X; lia]. cbn [andb].
    erewrite jview by eauto. rewrite H1, split_mid. eapply DO; eauto. cbn [int_stmt]. specialize (Z u). rewrite H1, !app_length in Z. rewrite rev_length. lia.
  - destruct (jat _ _ _ _ _ _ _ S H) as (-> & L). cbn [bind fst snd]. unfold j_elem. erewrite jview by eauto. rewrite H0. cbn [bind]. eapply DO; eauto; exact Logic.I.
  - destruct (jat _ _ _ _ _ _ _ S H) as (-> & L). cbn [bind fst snd]. rewrite Nat.eqb_refl. eapply DO; eauto. cbn [int_stmt]. specialize (Z v).
    unfold INT_MIN in *. lia.
Qed.

Lemma jdo_total : forall c s K I, sized s -> int_stmt c -> (forall s, ~ lundef c s) -> exists s' K' I' ev, js (JDo c) s K I s' K' I' ev.
Proof.
  intros c s K I Z A N. destruct (sound eqb lt show d D W c s Z A) as [(s' & ev & H & _)|(U & _)]; [|destruct (N s U)].
  destruct (jstmt_total c s K I s' ev H) as (K' & I' & V). eauto.
Qed.

Theorem jstep_cases : forall c t s K I, jstands t s K I -> jint_stmt c ->
  (exists s' K' I' ev, js c s K I s' K' I' ev) \/ (jrisk c s I /\ exists u, jstp c t = UB u).
Proof.
  intros c t s K I S A. pose proof (jsized _ _ _ _ S) as Z.
  assert (AT : forall i, (exists v p, I i = CAt v p /\ j_at t i = Ok (v, p) /\ (p <= length (s v))%nat) \/ ((forall v p, I i <> CAt v p) /\ j_at t i = UB BadDeref)).
  { intros i. destruct (cur_dec (I i)) as [(v & p & E)|N].
    - left. exists v, p. destruct (jat _ _ _ _ _ _ _ S E). auto.
    - right. split; auto. eapply jlost; eauto. }
  destruct c as [c|i v|i v|i v x|i j|i k|i|i|i j|v i j|v i j|v i|v i]; cbn [j_step jint_stmt jrisk] in *.
  - destruct (sound eqb lt show d D W c s Z A) as [(s' & ev & H & _)|(U & u & R)].
    + left. destruct (jstmt_total c s K I s' ev H) as (K' & I' & V). eauto.
    + right. split; auto. exists u. unfold j_do. rewrite (step_ext_ub eqb lt show d c s (lview (jh t)) u); auto.
      intros w. symmetry. eapply jview; eauto.
  - left. destruct (lput_total I i (CAt v 0)) as (I' & Q). do 4 eexists. apply j_begin. eauto.
  - left. destruct (lput_total I i (CAt v (length (s v)))) as (I' & Q). do 4 eexists. apply j_end. eauto.
  - left. destruct (lput_total I i (CAt v (std_find eqb (s v) x))) as (I' & Q). do 4 eexists. eapply j_find; [apply found_total|eauto].
  - destruct (AT j) as [(v & p & E & R & L)|(N & R)]; [left|right; split; [auto|rewrite R; cbn [bind]; eauto]].
    destruct (lput_total I i (CAt v p)) as (I' & Q). do 4 eexists. eapply j_copy; eauto.
  - destruct (AT i) as [(v & p & E & R & L)|(N & R)]; [|right; split; [auto|rewrite R; cbn [bind]; eauto]].
    destruct (Z_le_dec 0 (Z.of_nat p + k)) as [B1|B1]; [destruct (Z_le_dec (Z.of_nat p + k) (Z.of_nat (length (s v)))) as [B2|B2]|].
    + left. destruct (lput_total I i (CAt v (Z.to_nat (Z.of_nat p + k)))) as (I' & Q). do 4 eexists. eapply j_add; [exact E| | |exact Q]; lia.
    + right. split; [right; exists v, p; split; auto; lia|]. rewrite R. cbn [bind fst snd]. unfold len. erewrite jlen by eauto.
      destruct (Z.leb_spec 0 (Z.of_nat p + k)), (Z.leb_spec (Z.of_nat p + k) (Z.of_nat (length (s v)))); try lia. cbn [andb]. eauto.
    + right. split; [right; exists v, p; split; auto; lia|]. rewrite R. cbn [bind fst snd]. destruct (Z.leb_spec 0 (Z.of_nat p + k)); [lia|]. cbn [andb]. eauto.
  - destruct (AT i) as [(v & p & E & R & L)|(N & R)]; [|right; split; [auto|rewrite R; cbn [bind]; eauto]].
    destruct (nth_error (s v) p) as [x|] eqn:X.
    + left. do 4 eexists. eapply j_read; eauto.
    + right. split.
      * right. exists v. rewrite E. apply nth_error_None in X. f_equal. lia.
      * rewrite R. cbn [bind fst snd]. unfold j_elem. erewrite jview by eauto. rewrite X. cbn [bind]. eauto.
  - destruct (AT i) as [(v & p & E & R & L)|(N & R)]; [|right; split; [auto|rewrite R; cbn [bind]; eauto]].
    destruct p as [|p]; [right; split; [eauto|rewrite R; cbn [bind fst snd]; eauto]|]. destruct (nth_error (s v) p) as [x|] eqn:X.
    + left. do 4 eexists. eapply j_back; eauto.
    + apply nth_error_None in X. lia.
  - destruct (AT i) as [(v & p & E & R & L)|(N & R)]; [|right; split; [auto|rewrite R; cbn [bind]; eauto]].
    destruct (AT j) as [(w & q & E' & R' & L')|(N & R')]; [|right; split; [auto|rewrite R; cbn [bind]; rewrite R'; cbn [bind]; eauto]].
    destruct (Nat.eq_dec v w) as [->|N].
    + left. do 4 eexists. eapply j_diff; eauto.
    + right. split; [right; right; exists v, w, p, q; auto|]. rewrite R, R'. cbn [bind fst snd]. destruct (Nat.eqb_spec v w); [contradiction|eauto].
  - destruct (AT i) as [(u & p & E & R & L)|(N & R)]; [|right; split; [auto|rewrite R; cbn [bind]; eauto]].
    destruct (AT j) as [(w & q & E' & R' & L')|(N & R')]; [|right; split; [auto|rewrite R; cbn [bind]; rewrite R'; cbn [bind]; eauto]].
    destruct (Nat.eq_dec u w) as [->|N]; [destruct (Nat.le_gt_cases p q) as [B|B]|].
    + left. destruct (split_at (s w) p q B L') as (a & m & b & Es & <- & <- & _).
      destruct (jdo_total (LInit v m) s K I Z) as (s' & K' & I' & ev & V); [cbn [int_stmt]; specialize (Z w); rewrite Es, !app_length in Z; lia|auto|].
      do 4 eexists. eapply j_range; eauto.
    + right. split; [do 3 right; exists w, p, q; auto|]. rewrite R, R'. cbn [bind fst snd]. destruct (Nat.leb_spec p q); [lia|]. rewrite andb_false_r. eauto.
    + right. split; [right; right; left; exists u, w, p, q; auto|]. rewrite R, R'. cbn [bind fst snd]. destruct (Nat.eqb_spec u w); [contradiction|]. cbn [andb]. eauto.
  - destruct (AT i) as [(u & p & E & R & L)|(N & R)]; [|right; split; [auto|rewrite R; cbn [bind]; eauto]].
    destruct (AT j) as [(w & q & E' & R' & L')|(N & R')]; [|right; split; [auto|rewrite R; cbn [bind]; rewrite R'; cbn [bind]; eauto]].
    destruct (Nat.eq_dec u w) as [->|N]; [destruct (Nat.le_gt_cases q p) as [B|B]|].
    + left. destruct (split_at (s w) q p B L) as (a & m & b & Es & <- & <- & _).
      destruct (jdo_total (LInit v (rev m)) s K I Z) as (s' & K' & I' & ev & V);
        [cbn [int_stmt]; specialize (Z w); rewrite Es, !app_length in Z; rewrite rev_length; lia|auto|].
      do 4 eexists. eapply j_rev_range; eauto.
    + right. split; [do 3 right; exists w, p, q; auto|]. rewrite R, R'. cbn [bind fst snd]. destruct (Nat.leb_spec q p); [lia|]. rewrite andb_false_r. eauto.
    + right. split; [right; right; left; exists u, w, p, q; auto|]. rewrite R, R'. cbn [bind fst snd]. destruct (Nat.eqb_spec u w); [contradiction|]. cbn [andb]. eauto.
  - destruct (AT i) as [(w & p & E & R & L)|(N & R)]; [|right; split; [auto|rewrite R; cbn [bind]; eauto]].
    destruct (nth_error (s w) p) as [x|] eqn:X.
    + left. destruct (jdo_total (LAppend v x) s K I Z Logic.I) as (s' & K' & I' & ev & V); [auto|]. do 4 eexists. eapply j_append; eauto.
    + right. split.
      * right. exists w. rewrite E. apply nth_error_None in X. f_equal. lia.
      * rewrite R. cbn [bind fst snd]. unfold j_elem. erewrite jview by eauto. rewrite X. cbn [bind]. eauto.
  - destruct (AT i) as [(w & p & E & R & L)|(N & R)]; [|right; split; [auto|rewrite R; cbn [bind]; eauto]].
    destruct (Nat.eq_dec w v) as [->|N].
    + left. destruct (jdo_total (LRemove v (Z.of_nat p)) s K I Z) as (s' & K' & I' & ev & V); [cbn [int_stmt]; specialize (Z v); unfold INT_MIN in *; lia|auto|].
      do 4 eexists. eapply j_remove; eauto.
    + right. split; [right; exists w, p; auto|]. rewrite R. cbn [bind fst snd]. destruct (Nat.eqb_spec w v); [contradiction|eauto].
Qed.

(** ** Programs *)
Notation jr := (jrun eqb lt show grow).
Notation run := (j_run eqb lt show d grow).

Theorem jrun_complete : forall prog t s K I s' K' I' ev, jstands t s K I -> Forall jint_stmt prog -> jr prog s K I s' K' I' ev ->
  exists t', run prog t = Ok (t', ev) /\ jstands t' s' K' I'.
Proof.
  induction prog as [|c prog]; intros t s K I s' K' I' ev S A H; cbn [j_run]; inversion H as [|c0 p0 ? ? ? ? ? ? ? ? ? ev1 ev2 V1 V2]; subst; [eauto|].
  inversion A as [|c1 p1 A1 A2]; subst. destruct (jstep_ok _ _ _ _ _ _ _ _ _ S A1 V1) as (t1 & -> & S1).
  cbn [bind fst snd]. destruct (IHprog _ _ _ _ _ _ _ _ S1 A2 V2) as (t2 & -> & S2). cbn [bind fst snd]. eauto.
Qed.

Theorem jrun_cases : forall prog t s K I, jstands t s K I -> Forall jint_stmt prog ->
  (exists t' s' K' I' ev, run prog t = Ok (t', ev) /\ jr prog s K I s' K' I' ev /\ jstands t' s' K' I') \/ (exists u, run prog t = UB u).
Proof.
  induction prog as [|c prog]; intros t s K I S A; cbn [j_run].
  - left. do 5 eexists. split; [reflexivity|]. split; [constructor|eauto].
  - inversion A as [|c0 p0 A1 A2]; subst. destruct (jstep_cases c t s K I S A1) as [(s1 & K1 & I1 & ev1 & V)|(_ & u & ->)]; [|right; cbn [bind]; eauto].
    destruct (jstep_ok _ _ _ _ _ _ _ _ _ S A1 V) as (t1 & -> & S1). cbn [bind fst snd].
    destruct (IHprog t1 s1 K1 I1 S1 A2) as [(t2 & s2 & K2 & I2 & ev2 & -> & V2 & S2)|(u & ->)]; [left|right; cbn [bind]; eauto].
    cbn [bind fst snd]. do 5 eexists. split; [reflexivity|]. split; [econstructor; eauto|auto].
Qed.

Theorem jrun_refines : forall prog t s K I t' ev, jstands t s K I -> Forall jint_stmt prog -> run prog t = Ok (t', ev) ->
  exists s' K' I', jr prog s K I s' K' I' ev /\ jstands t' s' K' I'.
Proof.
  intros prog t s K I t' ev S A R. destruct (jrun_cases prog t s K I S A) as [(t2 & s2 & K2 & I2 & ev2 & R2 & V & S2)|(u & R2)]; [|congruence].
  rewrite R in R2. inversion R2; subst. eauto.
Qed.

Theorem jstep_ub : forall c t s K I, jstands t s K I -> jint_stmt c ->
  ((exists u, jstp c t = UB u) <-> ~ exists s' K' I' ev, js c s K I s' K' I' ev).
Proof.
  intros c t s K I S A. split.
  - intros (u & R) (s' & K' & I' & ev & V). destruct (jstep_ok _ _ _ _ _ _ _ _ _ S A V) as (t' & R' & _). congruence.
  - intros N. destruct (jstep_cases c t s K I S A) as [V|(_ & U)]; [contradiction|auto].
Qed.

(** The reasons are exact. *)
Lemma jrisk_not : forall c t s K I s' K' I' ev, jstands t s K I -> jint_stmt c -> js c s K I s' K' I' ev -> jrisk c s I -> False.
Proof.
  intros c t s K I s' K' I' ev S A H R. pose proof (jsized _ _ _ _ S) as Z.
  destruct H; cbn [jrisk jint_stmt] in *; try contradiction;
    repeat match goal with
    | X : _ \/ _ |- _ => destruct X
    | X : exists _, _ |- _ => destruct X
    | X : _ /\ _ |- _ => destruct X
    | X : forall v p, ?I ?i <> CAt v p, Y : ?I ?i = CAt _ _ |- _ => exact (X _ _ Y)
    | X : ?I ?i = CAt _ _, Y : ?I ?i = CAt _ _ |- _ => rewrite X in Y; inversion Y; subst; clear Y
    end; try congruence; try lia.
  - destruct c; cbn [lundef] in R; try contradiction; inv_spec H; try (inversion MU; subst); try lia; try tauto.
    all: unfold within in *; try lia; try tauto; try discriminate.
    all: try (match goal with X : LTimes _ _ = LTimes _ _ |- _ => inversion X; subst end; lia).
    all: try (destruct R as (_ & _ & [R|(_ & R)]); [lia|contradiction]).
  - rewrite (proj2 (nth_error_None (s x0) (length (s x0)))) in H0 by lia. discriminate.
  - rewrite app_length in *. lia.
  - rewrite app_length in *. lia.
  - match goal with X : nth_error (s ?y) (length (s ?y)) = Some _ |- _ => rewrite (proj2 (nth_error_None (s y) (length (s y)))) in X by lia; discriminate end.
Qed.

Theorem jstep_risk : forall c t s K I, jstands t s K I -> jint_stmt c -> ((exists u, jstp c t = UB u) <-> jrisk c s I).
Proof.
  intros c t s K I S A. destruct (jstep_cases c t s K I S A) as [(s' & K' & I' & ev & V)|(R & U)]; [|tauto].
  split; intros X.
  - destruct X as (u & X). destruct (jstep_ok _ _ _ _ _ _ _ _ _ S A V) as (t' & R' & _). congruence.
  - destruct (jrisk_not _ _ _ _ _ _ _ _ _ S A V X).
Qed.

(** ** Single steps *)
Lemma jrun_app : forall p q t, run (p ++ q) t = (he <- run p t ;; he' <- run q (fst he) ;; Ok (fst he', snd he ++ snd he')).
Proof.
  induction p as [|c p IH]; intros q t; cbn [app j_run bind fst snd].
  - destruct (run q t) as [[t' ev]|?|?|]; reflexivity.
  - destruct (jstp c t) as [[t1 ev1]|?|?|]; cbn [bind fst snd]; auto. rewrite IH.
    destruct (run p t1) as [[t2 ev2]|?|?|]; cbn [bind fst snd]; auto.
    destruct (run q t2) as [[t3 ev3]|?|?|]; cbn [bind fst snd]; auto. rewrite app_assoc. auto.
Qed.
Lemma lput_vset : forall I i x, lput I i x (vset I i x).
Proof. intros I i x. unfold lput, vset. rewrite Nat.eqb_refl. split; auto. intros q N. destruct (Nat.eqb_spec q i); congruence. Qed.
Lemma vset_ne : forall A (f : nat -> A) i x j, j <> i -> vset f i x j = f j.
Proof. intros A f i x j N. unfold vset. destruct (Nat.eqb_spec j i); congruence. Qed.

Lemma begin_ok : forall t s K I i v, jstands t s K I -> exists t', jstp (JBegin i v) t = Ok (t', []) /\ jstands t' s K (vset I i (CAt v 0)).
Proof. intros. eapply jstep_ok; eauto; [exact Logic.I|]. apply j_begin, lput_vset. Qed.
Lemma end_ok : forall t s K I i v, jstands t s K I -> exists t', jstp (JEnd i v) t = Ok (t', []) /\ jstands t' s K (vset I i (CAt v (length (s v)))).
Proof. intros. eapply jstep_ok; eauto; [exact Logic.I|]. apply j_end, lput_vset. Qed.
Lemma find_ok : forall t s K I i v x, jstands t s K I ->
  exists t', jstp (JFind i v x) t = Ok (t', []) /\ jstands t' s K (vset I i (CAt v (std_find eqb (s v) x))).
Proof. intros. eapply jstep_ok; eauto; [exact Logic.I|]. eapply j_find; [apply found_total|apply lput_vset]. Qed.
Lemma next_ok : forall t s K I i v p, jstands t s K I -> I i = CAt v p -> (p < length (s v))%nat ->
  exists t', jstp (JAdd i 1) t = Ok (t', []) /\ jstands t' s K (vset I i (CAt v (Datatypes.S p))).
Proof. intros. eapply jstep_ok; eauto; [exact Logic.I|]. apply (j_add eqb lt show grow i 1 v p (Datatypes.S p)); [auto|lia|lia|apply lput_vset]. Qed.
Lemma prev_ok : forall t s K I i v p, jstands t s K I -> I i = CAt v (Datatypes.S p) ->
  exists t', jstp (JAdd i (-1)) t = Ok (t', []) /\ jstands t' s K (vset I i (CAt v p)).
Proof.
  intros t s K I i v p S E. destruct (jat _ _ _ _ _ _ _ S E) as (_ & L).
  eapply jstep_ok; eauto; [exact Logic.I|]. apply (j_add eqb lt show grow i (-1) v (Datatypes.S p) p); [auto|lia|lia|apply lput_vset].
Qed.
Lemma jread_ok : forall t s K I i v p x, jstands t s K I -> I i = CAt v p -> nth_error (s v) p = Some x -> jstp (JRead i) t = Ok (t, [LElem x]).
Proof.
  intros t s K I i v p x S E N. cbn [j_step]. destruct (jat _ _ _ _ _ _ _ S E) as (-> & _). cbn [bind fst snd]. unfold j_elem.
  erewrite jview by eauto. rewrite N. auto.
Qed.
Lemma jback_ok : forall t s K I i v p x, jstands t s K I -> I i = CAt v (Datatypes.S p) -> nth_error (s v) p = Some x -> jstp (JBack i) t = Ok (t, [LElem x]).
Proof.
  intros t s K I i v p x S E N. cbn [j_step]. destruct (jat _ _ _ _ _ _ _ S E) as (-> & _). cbn [bind fst snd]. unfold j_elem.
  erewrite jview by eauto. rewrite N. auto.
Qed.
Lemma jread_lost : forall t s K I i, jstands t s K I -> I i = CDead -> jstp (JRead i) t = UB BadDeref.
Proof. intros t s K I i S E. cbn [j_step]. rewrite (jlost _ _ _ _ i S); [auto|]. intros v p. rewrite E. discriminate. Qed.

(** ** Loops *)
Notation loop := (j_loop eqb lt show d grow).
Notation loop_back := (j_loop_back eqb lt show d grow).

(** The loop visits the positions in order, as long as its body keeps both iterators. *)
Theorem loop_rule : forall (Inv : nat -> lstore T -> Prop) (out : nat -> list (levent T)) body i e v n, i <> e ->
  (forall p t s K I, (p < n)%nat -> jstands t s K I -> I i = CAt v p -> I e = CAt v n -> Inv p s ->
     exists t' s' K' I', run body t = Ok (t', out p) /\ jstands t' s' K' I' /\ I' i = CAt v p /\ I' e = CAt v n /\ Inv (Datatypes.S p) s') ->
  forall k p fuel t s K I, (p + k = n)%nat -> (k < fuel)%nat -> jstands t s K I -> I i = CAt v p -> I e = CAt v n -> Inv p s ->
  exists t' s' K' I', loop fuel i e body t = Ok (t', concat (map out (seq p k))) /\ jstands t' s' K' I' /\ Inv n s'.
Proof.
  intros Inv out body i e v n NE B. induction k as [|k IH]; intros p fuel t s K I E F S Ei Ee V.
  - destruct fuel as [|fuel]; [lia|]. cbn [j_loop]. destruct (jat _ _ _ _ _ _ _ S Ei) as (-> & _). destruct (jat _ _ _ _ _ _ _ S Ee) as (-> & _).
    cbn [bind fst snd]. rewrite Nat.eqb_refl. destruct (Nat.eqb_spec p n); [|lia]. subst p. do 4 eexists. split; [reflexivity|]. eauto.
  - destruct fuel as [|fuel]; [lia|]. cbn [j_loop]. destruct (jat _ _ _ _ _ _ _ S Ei) as (-> & _). destruct (jat _ _ _ _ _ _ _ S Ee) as (-> & _).
    cbn [bind fst snd]. rewrite Nat.eqb_refl. destruct (Nat.eqb_spec p n); [lia|].
    destruct (B p t s K I ltac:(lia) S Ei Ee V) as (t1 & s1 & K1 & I1 & R1 & S1 & Ei1 & Ee1 & V1).
    rewrite jrun_app, R1. cbn [bind fst snd j_run]. destruct (jat _ _ _ _ _ _ _ S1 Ee1) as (_ & L1).
    destruct (next_ok t1 s1 K1 I1 i v p S1 Ei1 ltac:(lia)) as (t2 & R2 & S2). rewrite R2. cbn [bind fst snd app].
    destruct (IH (Datatypes.S p) fuel t2 s1 K1 _ ltac:(lia) ltac:(lia) S2 (vset_eq _ _ _ _)) as (t3 & s3 & K3 & I3 & R3 & S3 & V3).
    { rewrite vset_ne by auto. auto. }
    { auto. }
    rewrite R3. cbn [bind fst snd]. do 4 eexists. split; [|eauto]. rewrite app_nil_r. cbn [seq map concat]. reflexivity.
Qed.

Theorem loop_back_rule : forall (Inv : nat -> lstore T -> Prop) (out : nat -> list (levent T)) body i e v, i <> e ->
  (forall p t s K I, jstands t s K I -> I i = CAt v (Datatypes.S p) -> I e = CAt v 0 -> Inv (Datatypes.S p) s ->
     exists t' s' K' I', run body t = Ok (t', out p) /\ jstands t' s' K' I' /\ I' i = CAt v (Datatypes.S p) /\ I' e = CAt v 0 /\ Inv p s') ->
  forall p fuel t s K I, (p < fuel)%nat -> jstands t s K I -> I i = CAt v p -> I e = CAt v 0 -> Inv p s ->
  exists t' s' K' I', loop_back fuel i e body t = Ok (t', concat (map out (rev (seq 0 p)))) /\ jstands t' s' K' I' /\ Inv 0%nat s'.
Proof.
  intros Inv out body i e v NE B. induction p as [|p IH]; intros fuel t s K I F S Ei Ee V.
  - destruct fuel as [|fuel]; [lia|]. cbn [j_loop_back]. destruct (jat _ _ _ _ _ _ _ S Ei) as (-> & _). destruct (jat _ _ _ _ _ _ _ S Ee) as (-> & _).
    cbn [bind fst snd]. rewrite Nat.eqb_refl. cbn [Nat.eqb]. do 4 eexists. split; [reflexivity|]. eauto.
  - destruct fuel as [|fuel]; [lia|]. cbn [j_loop_back]. destruct (jat _ _ _ _ _ _ _ S Ei) as (-> & _). destruct (jat _ _ _ _ _ _ _ S Ee) as (-> & _).
    cbn [bind fst snd]. rewrite Nat.eqb_refl. cbn [Nat.eqb].
    destruct (B p t s K I S Ei Ee V) as (t1 & s1 & K1 & I1 & R1 & S1 & Ei1 & Ee1 & V1).
    rewrite jrun_app, R1. cbn [bind fst snd j_run].
    destruct (prev_ok t1 s1 K1 I1 i v p S1 Ei1) as (t2 & R2 & S2). rewrite R2. cbn [bind fst snd app].
    destruct (IH fuel t2 s1 K1 _ ltac:(lia) S2 (vset_eq _ _ _ _)) as (t3 & s3 & K3 & I3 & R3 & S3 & V3).
    { rewrite vset_ne by auto. auto. }
    { auto. }
    rewrite R3. cbn [bind fst snd]. do 4 eexists. split; [|eauto]. rewrite app_nil_r.
    rewrite seq_S, rev_app_distr. cbn [rev app map concat Nat.add]. reflexivity.
Qed.

Lemma start_for : forall t s K I i e v, jstands t s K I -> i <> e -> exists t', run [JBegin i v; JEnd e v] t = Ok (t', []) /\
  exists I', jstands t' s K I' /\ I' i = CAt v 0 /\ I' e = CAt v (length (s v)).
Proof.
  intros t s K I i e v S N. cbn [j_run]. destruct (begin_ok t s K I i v S) as (t1 & -> & S1). cbn [bind fst snd].
  destruct (end_ok t1 s K _ e v S1) as (t2 & -> & S2). cbn [bind fst snd app]. eexists. split; [reflexivity|]. eexists. split; [exact S2|].
  rewrite vset_eq, vset_ne, vset_eq; auto.
Qed.
Lemma start_back : forall t s K I i e v, jstands t s K I -> i <> e -> exists t', run [JEnd i v; JBegin e v] t = Ok (t', []) /\
  exists I', jstands t' s K I' /\ I' i = CAt v (length (s v)) /\ I' e = CAt v 0.
Proof.
  intros t s K I i e v S N. cbn [j_run]. destruct (end_ok t s K I i v S) as (t1 & -> & S1). cbn [bind fst snd].
  destruct (begin_ok t1 s K _ e v S1) as (t2 & -> & S2). cbn [bind fst snd app]. eexists. split; [reflexivity|]. eexists. split; [exact S2|].
  rewrite vset_eq, vset_ne, vset_eq; auto.
Qed.

Lemma nth_seq_map : forall (l : list T) (f : nat -> list (levent T)), (forall p x, nth_error l p = Some x -> f p = [LElem x]) ->
  concat (map f (seq 0 (length l))) = map LElem l.
Proof.
  intros l f. induction l as [|x l IH] using rev_ind; intros H; auto.
  rewrite app_length. cbn [length]. rewrite Nat.add_1_r, seq_S, map_app, concat_app, map_app. rewrite IH.
  - cbn [map concat Nat.add]. rewrite (H _ x); [auto|]. rewrite nth_error_app2, Nat.sub_diag by lia. auto.
  - intros p y N. apply H. rewrite nth_error_app1; auto. apply nth_error_Some. congruence.
Qed.
Lemma nth_seq_back : forall (l : list T) (f : nat -> list (levent T)), (forall p x, nth_error l p = Some x -> f p = [LElem x]) ->
  concat (map f (rev (seq 0 (length l)))) = map LElem (rev l).
Proof.
  intros l f. induction l as [|x l IH] using rev_ind; intros H; auto.
  rewrite app_length. cbn [length]. rewrite Nat.add_1_r, seq_S, !rev_app_distr. cbn [rev app map concat Nat.add]. rewrite IH.
  - rewrite (H _ x); [auto|]. rewrite nth_error_app2, Nat.sub_diag by lia. auto.
  - intros p y N. apply H. rewrite nth_error_app1; auto. apply nth_error_Some. congruence.
Qed.

Definition nth_event (l : list T) (p : nat) : list (levent T) := match nth_error l p with Some x => [LElem x] | None => [] end.
Lemma nth_event_ok : forall l p x, nth_error l p = Some x -> nth_event l p = [LElem x].
Proof. intros l p x E. unfold nth_event. rewrite E. auto. Qed.

(** for (x : v) emit(x); *)
Theorem for_reads : forall t s K I i e v fuel, jstands t s K I -> i <> e -> (length (s v) < fuel)%nat ->
  exists t', range_for eqb lt show d grow fuel i e v [JRead i] t = Ok (t', map LElem (s v)) /\ forall u, lview (jh t') u = s u.
Proof.
  intros t s K I i e v fuel S N F. unfold range_for. destruct (start_for t s K I i e v S N) as (t1 & -> & I1 & S1 & Ei & Ee). cbn [bind fst].
  destruct (loop_rule (fun _ s' => s' = s) (nth_event (s v)) [JRead i] i e v (length (s v)) N) with (k := length (s v)) (p := 0%nat) (fuel := fuel) (t := t1) (s := s) (K := K) (I := I1)
    as (t2 & s2 & K2 & I2 & -> & S2 & ->); auto.
  - intros p t' s' K' I' L S' Ei' Ee' ->. destruct (nth_error (s v) p) as [x|] eqn:X; [|apply nth_error_None in X; lia].
    exists t', s, K', I'. split; auto. cbn [j_run]. rewrite (jread_ok _ _ _ _ _ _ _ _ S' Ei' X). cbn [bind fst snd app].
    rewrite (nth_event_ok _ _ _ X). auto.
  - exists t2. split; [|intros u; eapply jview; eauto]. rewrite (nth_seq_map (s v)) by apply nth_event_ok. auto.
Qed.

(** for (r = v.rbegin(); r != v.rend(); ++r) emit( *r); *)
Theorem back_reads : forall t s K I i e v fuel, jstands t s K I -> i <> e -> (length (s v) < fuel)%nat ->
  exists t', range_back eqb lt show d grow fuel i e v [JBack i] t = Ok (t', map LElem (rev (s v))) /\ forall u, lview (jh t') u = s u.
Proof.
  intros t s K I i e v fuel S N F. unfold range_back. destruct (start_back t s K I i e v S N) as (t1 & -> & I1 & S1 & Ei & Ee). cbn [bind fst].
  destruct (loop_back_rule (fun _ s' => s' = s) (nth_event (s v)) [JBack i] i e v N) with (p := length (s v)) (fuel := fuel) (t := t1) (s := s) (K := K) (I := I1)
    as (t2 & s2 & K2 & I2 & -> & S2 & ->); auto.
  - intros p t' s' K' I' S' Ei' Ee' ->. destruct (jat _ _ _ _ _ _ _ S' Ei') as (_ & L).
    destruct (nth_error (s v) p) as [x|] eqn:X; [|apply nth_error_None in X; lia].
    exists t', s, K', I'. split; auto. cbn [j_run]. rewrite (jback_ok _ _ _ _ _ _ _ _ S' Ei' X). cbn [bind fst snd app].
    rewrite (nth_event_ok _ _ _ X). auto.
  - exists t2. split; [|intros u; eapply jview; eauto]. rewrite (nth_seq_back (s v)) by apply nth_event_ok. auto.
Qed.

(** A statement on other lists keeps the iterators of this one. *)
Lemma append_other : forall t s K I w x, jstands t s K I -> len (s w) < INT_MAX ->
  exists t' K' f, jd (LAppend w x) t = Ok (t', []) /\ jstands t' (lset s w (s w ++ [x])) K' (fun j => move_cur f s (I j)) /\ exists m, f = Cut w m.
Proof.
  intros t s K I w x S L.
  assert (H : spec (LAppend w x) s (lset s w (s w ++ [x])) []) by (apply (s_mut eqb lt show (LAppend w x) w); [reflexivity|apply m_append; exact L]).
  destruct (grown_total grow w (length (s w)) (Z.of_nat (length (s w))) 1 K) as (f & K' & G).
  destruct (jdo_ok (LAppend w x) t s K I _ _ f K' (fun j => move_cur f s (I j)) S Logic.I H (e_append grow _ _ _ _ _ _ _ G) (moved_total f s I)) as (t' & R & S').
  exists t', K', f. split; auto. split; auto. destruct (grown_cut _ _ _ _ _ _ _ G) as (m & -> & _). eauto.
Qed.

(** for (x : v) w += x; *)
Theorem for_copies : forall t s K I i e v w fuel, jstands t s K I -> i <> e -> v <> w -> (length (s v) < fuel)%nat -> len (s v) + len (s w) <= INT_MAX ->
  exists t', range_for eqb lt show d grow fuel i e v [JAppend w i] t = Ok (t', []) /\
    lview (jh t') w = s w ++ s v /\ forall u, u <> w -> lview (jh t') u = s u.
Proof.
  intros t s K I i e v w fuel S N NW F B. unfold range_for. destruct (start_for t s K I i e v S N) as (t1 & -> & I1 & S1 & Ei & Ee). cbn [bind fst].
  destruct (loop_rule (fun p s' => s' w = s w ++ firstn p (s v) /\ forall u, u <> w -> s' u = s u) (fun _ => []) [JAppend w i] i e v (length (s v)) N)
    with (k := length (s v)) (p := 0%nat) (fuel := fuel) (t := t1) (s := s) (K := K) (I := I1)
    as (t2 & s2 & K2 & I2 & R2 & S2 & V1 & V2); auto.
  - intros p t' s' K' I' L S' Ei' Ee' (V1 & V2). destruct (nth_error (s v) p) as [x|] eqn:X; [|apply nth_error_None in X; lia].
    cbn [j_run j_step]. destruct (jat _ _ _ _ _ _ _ S' Ei') as (-> & _). cbn [bind fst snd]. unfold j_elem. erewrite jview by eauto.
    rewrite V2, X by auto. cbn [bind].
    assert (LX : len (s' w) < INT_MAX). { rewrite V1. unfold len in *. rewrite app_length, firstn_length. lia. }
    destruct (append_other t' s' K' I' w x S' LX) as (t3 & K3 & f & R3 & S3 & m & Ef). rewrite R3. cbn [bind fst snd app].
    do 4 eexists. split; [reflexivity|]. split; [exact S3|]. cbv beta. rewrite Ei', Ee', Ef. cbn [move_cur]. destruct (Nat.eqb_spec v w); [contradiction|].
    cbn [andb]. split; auto. split; auto. split; [|intros u Nu; rewrite lset_other by auto; auto].
    rewrite lset_eq, V1, <- app_assoc. f_equal. apply nth_error_split in X. destruct X as (a & b & Ev & La).
    rewrite Ev. subst p. replace (Datatypes.S (length a)) with (length a + 1)%nat by lia. rewrite firstn_app_2.
    replace (firstn (length a)) with (@firstn T (length a + 0)) by (f_equal; lia). rewrite firstn_app_2. cbn [firstn]. rewrite app_nil_r. reflexivity.
  - split; auto. cbn [firstn]. rewrite app_nil_r. auto.
  - rewrite R2. exists t2. split.
    + f_equal. f_equal. generalize (seq 0 (length (s v))). intros l. induction l; auto.
    + rewrite (jview _ _ _ _ _ S2), V1, firstn_all. split; auto. intros u Nu. rewrite (jview _ _ _ _ _ S2). auto.
Qed.

(** The constructor from a range. *)
Theorem range_copy : forall t s K I i j v w, jstands t s K I -> i <> j ->
  exists t', run [JBegin i v; JEnd j v; JRange w i j] t = Ok (t', []) /\ forall u, lview (jh t') u = lset s w (s v) u.
Proof.
  intros t s K I i j v w S N. change [JBegin i v; JEnd j v; JRange w i j] with ([@JBegin T i v; JEnd j v] ++ [JRange w i j]).
  rewrite jrun_app. destruct (start_for t s K I i j v S N) as (t1 & -> & I1 & S1 & Ei & Ee). cbn [bind fst snd j_run].
  destruct (jstmt_total (LInit w (s v)) s K I1 (lset s w (s v)) [] (s_init _ _ _ _ _ _)) as (K' & I' & V).
  destruct (jstep_ok (JRange w i j) t1 s K I1 (lset s w (s v)) K' I' [] S1 Logic.I) as (t2 & R2 & S2).
  { eapply (j_range eqb lt show grow w i j v [] (s v) []); auto. rewrite app_nil_r. auto. }
  rewrite R2. cbn [bind fst snd app]. exists t2. split; auto. intros u. eapply jview; eauto.
Qed.
Theorem range_reversed : forall t s K I i j v w, jstands t s K I -> i <> j ->
  exists t', run [JEnd i v; JBegin j v; JRevRange w i j] t = Ok (t', []) /\ forall u, lview (jh t') u = lset s w (rev (s v)) u.
Proof.
  intros t s K I i j v w S N. change [JEnd i v; JBegin j v; JRevRange w i j] with ([@JEnd T i v; JBegin j v] ++ [JRevRange w i j]).
  rewrite jrun_app. destruct (start_back t s K I i j v S N) as (t1 & -> & I1 & S1 & Ei & Ee). cbn [bind fst snd j_run].
  destruct (jstmt_total (LInit w (rev (s v))) s K I1 (lset s w (rev (s v))) [] (s_init _ _ _ _ _ _)) as (K' & I' & V).
  destruct (jstep_ok (JRevRange w i j) t1 s K I1 (lset s w (rev (s v))) K' I' [] S1 Logic.I) as (t2 & R2 & S2).
  { eapply (j_rev_range eqb lt show grow w i j v [] (s v) []); auto. rewrite app_nil_r. auto. }
  rewrite R2. cbn [bind fst snd app]. exists t2. split; auto. intros u. eapply jview; eauto.
Qed.

(** v.find(x) - v.begin() *)
Theorem find_position : forall t s K I i j v x p, jstands t s K I -> i <> j -> found_at (s v) x p ->
  exists t', run [JFind i v x; JBegin j v; JDiff i j] t = Ok (t', [LNum (Z.of_nat p)]).
Proof.
  intros t s K I i j v x p S N F. cbn [j_run]. destruct (find_ok t s K I i v x S) as (t1 & -> & S1). cbn [bind fst snd].
  destruct (begin_ok t1 s K _ j v S1) as (t2 & -> & S2). cbn [bind fst snd].
  edestruct (jstep_ok (JDiff i j) t2 s K) as (t3 & R3 & S3); [exact S2|exact Logic.I| |].
  { eapply j_diff; [rewrite vset_ne by auto; apply vset_eq|apply vset_eq]. }
  rewrite R3. cbn [bind fst snd app]. rewrite (found_ok _ _ _ F). exists t3. change (Z.of_nat 0) with 0. rewrite Z.sub_0_r. auto.
Qed.

(** Changing the list in the loop. *)
Lemma resizing_cut : forall c v s s' ev K f K', resizing c v -> threw ev = false -> effect grow c s s' ev K f K' -> exists k, f = Cut v k.
Proof.
  intros c v s s' ev K f K' R N F. destruct F; cbn [threw resizing] in *; try discriminate; try contradiction; subst;
    try (match goal with X : grown _ _ _ _ _ _ _ _ |- _ => destruct (grown_cut _ _ _ _ _ _ _ X) as (m & -> & _) end);
    try (eexists; reflexivity); destruct c; cbn [resizing] in R; try contradiction; subst; eexists; reflexivity.
Qed.

Theorem for_resizing : forall t s K I i e v c fuel s' ev, jstands t s K I -> i <> e -> s v <> [] -> int_stmt c -> resizing c v ->
  sstep eqb lt show c s s' ev -> threw ev = false ->
  exists u, range_for eqb lt show d grow (Datatypes.S (Datatypes.S fuel)) i e v [JDo c] t = UB u.
Proof.
  intros t s K I i e v c fuel s' ev S N NE A RZ H TH. unfold range_for.
  destruct (start_for t s K I i e v S N) as (t1 & -> & I1 & S1 & Ei & Ee). cbn [bind fst].
  cbn [j_loop]. destruct (jat _ _ _ _ _ _ _ S1 Ei) as (-> & _). destruct (jat _ _ _ _ _ _ _ S1 Ee) as (-> & _). cbn [bind fst snd]. rewrite Nat.eqb_refl.
  destruct (Nat.eqb_spec 0 (length (s v))) as [L|L]; [destruct (s v); [contradiction|discriminate]|].
  destruct (effect_total eqb lt show grow c s s' ev K H) as (f & K' & F).
  pose proof (agrees _ _ _ _ _ _ _ (jsized _ _ _ _ S) A H F) as AG.
  destruct (resizing_cut _ _ _ _ _ _ _ _ RZ TH F) as (k & ->). destruct AG as (_ & LK & _).
  destruct (jdo_ok c t1 s K I1 s' ev _ K' (fun j => move_cur (Cut v k) s (I1 j)) S1 A H F (moved_total _ _ _)) as (t2 & R2 & S2).
  cbn [app]. remember (j_loop eqb lt show d grow) as lp. cbn [j_run j_step]. rewrite R2. cbn [bind fst snd].
  set (I2 := fun j => move_cur (Cut v k) s (I1 j)) in *.
  assert (E2 : I2 e = CDead).
  { unfold I2. rewrite Ee. cbn [move_cur]. rewrite Nat.eqb_refl. destruct (Nat.leb_spec k (length (s v))); [auto|lia]. }
  destruct (jstep_cases (JAdd i 1) t2 s' K' I2 S2 Logic.I) as [(s3 & K3 & I3 & ev3 & V)|(_ & u & R3)].
  - destruct (jstep_ok (JAdd i 1) _ _ _ _ _ _ _ _ S2 Logic.I V) as (t3 & R3 & S3). cbn [j_step] in R3. rewrite R3. cbn [bind fst snd].
    assert (E3 : I3 e = CDead). { inversion V; subst. match goal with X : lput _ _ _ _ |- _ => destruct X as (_ & X); rewrite X; auto end. }
    assert (exists q, I3 i = CAt v q) as (q & Eq).
    { inversion V; subst. match goal with X : lput _ _ _ _ |- _ => destruct X as (X & _) end. 
      match goal with Y : I2 i = CAt ?w _ |- _ => assert (w = v); [|subst w; eauto];
        unfold I2 in Y; rewrite Ei in Y; cbn [move_cur] in Y; rewrite Nat.eqb_refl in Y; destruct (Nat.leb k 0); [discriminate|]; inversion Y; auto end. }
    subst lp. cbn [j_loop]. destruct (jat _ _ _ _ _ _ _ S3 Eq) as (-> & _). cbn [bind].
    rewrite (jlost _ _ _ _ e S3) by (intros; rewrite E3; discriminate). cbn [bind]. eauto.
  - cbn [j_step] in R3. rewrite R3. cbn [bind]. eauto.
Qed.

(** The iterator to the element that is removed is of no more use. *)
Theorem remove_ends : forall t s K I i v p k x, jstands t s K I -> I i = CAt v p -> INT_MIN <= k <= INT_MAX ->
  position (len (s v)) k = Some x -> (x <= p)%nat ->
  exists t' ev, jd (LRemove v k) t = Ok (t', ev) /\ j_at t' i = UB BadDeref.
Proof.
  intros t s K I i v p k x S E A Q L.
  destruct (position_back _ _ _ Q) as (_ & B). 
  destruct (nth_error (s v) x) as [y|] eqn:N; [|apply nth_error_None in N; unfold len in B; lia].
  apply nth_error_split in N. destruct N as (a & b & Ev & La).
  assert (H : spec (LRemove v k) s (lset s v (a ++ b)) [LElem y]).
  { apply (s_mut eqb lt show (LRemove v k) v); [reflexivity|]. eapply m_remove; [exact Q|]. split; [exact Ev|lia]. }
  destruct (jdo_ok (LRemove v k) t s K I _ _ (Cut v x) K (fun j => move_cur (Cut v x) s (I j)) S A H) as (t' & R & S').
  { eapply e_remove; [exact Q|]. intros u. auto. }
  { apply moved_total. }
  exists t', [LElem y]. split; auto. eapply jlost; eauto. cbv beta. rewrite E. cbn [move_cur]. rewrite Nat.eqb_refl.
  destruct (Nat.leb_spec x p); [cbn [andb]; discriminate|lia].
Qed.

(** Appending: the iterators at elements survive exactly if the capacity suffices, the end never. *)
Theorem append_iter : forall t s K I i v p x, jstands t s K I -> I i = CAt v p -> len (s v) < INT_MAX ->
  exists t' , jd (LAppend v x) t = Ok (t', []) /\
    ((p < length (s v))%nat -> len (s v) < K v -> j_at t' i = Ok (v, p)) /\
    ((p < length (s v))%nat -> K v <= len (s v) -> j_at t' i = UB BadDeref) /\
    (p = length (s v) -> j_at t' i = UB BadDeref).
Proof.
  intros t s K I i v p x S E L.
  assert (H : spec (LAppend v x) s (lset s v (s v ++ [x])) []) by (apply (s_mut eqb lt show (LAppend v x) v); [reflexivity|apply m_append; exact L]).
  destruct (grown_total grow v (length (s v)) (Z.of_nat (length (s v))) 1 K) as (f & K' & G).
  destruct (jdo_ok (LAppend v x) t s K I _ _ f K' (fun j => move_cur f s (I j)) S Logic.I H (e_append grow _ _ _ _ _ _ _ G) (moved_total f s I)) as (t' & R & S').
  exists t'. split; auto.
  assert (X : forall m, f = Cut v m -> (m <= p)%nat -> j_at t' i = UB BadDeref).
  { intros m -> Lm. eapply jlost; eauto. cbv beta. rewrite E. cbn [move_cur]. rewrite Nat.eqb_refl. destruct (Nat.leb_spec m p); [cbn [andb]; discriminate|lia]. }
  assert (Y : forall m, f = Cut v m -> (p < m)%nat -> j_at t' i = Ok (v, p)).
  { intros m -> Lm. eapply jat; eauto. cbv beta. rewrite E. cbn [move_cur]. rewrite Nat.eqb_refl. destruct (Nat.leb_spec m p); [lia|auto]. }
  unfold len in *. inversion G; subst; repeat split; intros; try lia; try (eapply Y; [reflexivity|lia]); eapply X; try reflexivity; lia.
Qed.
End Iter.
