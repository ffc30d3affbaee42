(** The search trees of TreeModel.v with an honest comparison do what the sorted sequences of SetModel.v do, or throw. *)
From Coq Require Import ZArith List Bool Lia.
From Verif Require Import Outcome ListModel ListCallModel SetModel SetSpec SetFacts TreeModel TreeSpec.
Import ListNotations.
Open Scope Z_scope.

Section Gives.
Context {S X : Type} (may : X -> Prop).

(** The code returns with [post], or throws an exception of the client with [fail]. *)
Definition runs {E A : Type} (m : TM S X E A) (t : tree E) (post : A -> tree E -> Prop) (fail : tree E -> Prop) : Prop := forall s,
  match m (t, s) with
  | (CRet a, (t', _)) => post a t'
  | (CThrow (inr x), (t', _)) => fail t' /\ may x
  | _ => False
  end.
(** With an exception the tree is as it was. *)
Definition gives {E A : Type} (m : TM S X E A) (t : tree E) (post : A -> tree E -> Prop) : Prop := runs m t post (fun t' => t' = t).
Definition tells_of {E A : Type} (m : TM S X E A) (t : tree E) (post : A -> Prop) : Prop := gives m t (fun a t' => t' = t /\ post a).

Lemma g_ret : forall E A (a : A) (t : tree E) (P : A -> tree E -> Prop) F, P a t -> runs (tret a) t P F.
Proof. intros E A a t P F H s. exact H. Qed.
Lemma g_conseq : forall E A (m : TM S X E A) t (P Q : A -> tree E -> Prop) (F G : tree E -> Prop), runs m t P F ->
  (forall a t', P a t' -> Q a t') -> (forall t', F t' -> G t') -> runs m t Q G.
Proof. intros E A m t P Q F G H I J s. specialize (H s). destruct (m (t, s)) as [[a|[x|x]|u] [t' s']]; auto. intuition auto. Qed.
Lemma g_seq : forall E A B (m : TM S X E A) (f : A -> TM S X E B) t P F Q, runs m t P F -> (forall a t', P a t' -> runs (f a) t' Q F) -> runs (tbind m f) t Q F.
Proof.
  intros E A B m f t P F Q H I s. unfold tbind. specialize (H s). destruct (m (t, s)) as [[a|[x|x]|u] [t' s']]; auto.
  apply (I a t' H).
Qed.
Lemma g_bind : forall E A B (m : TM S X E A) (f : A -> TM S X E B) t P (F : tree E -> Prop) Q, tells_of m t P -> F t -> (forall a, P a -> runs (f a) t Q F) -> runs (tbind m f) t Q F.
Proof.
  intros E A B m f t P F Q H J I. eapply g_seq.
  - eapply g_conseq; [exact H|intros a t' K; exact K|]. intros t' ->. auto.
  - intros a t' (-> & K). apply I. auto.
Qed.
(** Nothing can throw after the change. *)
Lemma g_last : forall E A B (m : TM S X E A) (f : A -> B) t P F (Q : B -> tree E -> Prop), runs m t P F -> (forall a t', P a t' -> Q (f a) t') -> runs (tbind m (fun a => tret (f a))) t Q F.
Proof. intros E A B m f t P F Q H I. eapply g_seq; [eauto|]. intros a t' K. apply g_ret. auto. Qed.
Lemma g_get : forall E (t : tree E), tells_of tget t (fun a => a = t).
Proof. intros E t s. cbn. auto. Qed.
Lemma g_elem : forall E (t : tree E) i e, nth_error (elems t) i = Some e -> tells_of (telem i) t (fun a => a = e).
Proof. intros E t i e H s. unfold telem. cbn [fst]. rewrite H. auto. Qed.
Lemma g_task : forall E T (c : T -> T -> call S X bool) f (t : tree E) a b, honest c f -> (forall x, throws c x -> may x) ->
  tells_of (task (c a b)) t (fun r => r = f a b).
Proof.
  intros E T c f t a b H M s. unfold task. cbn [fst snd]. destruct (c a b s) as [[r|x] s'] eqn:Q.
  - split; auto. apply (H a b s). rewrite Q. auto.
  - split; auto. apply M. exists a, b, s. rewrite Q. auto.
Qed.
Lemma g_fresh : forall E F (m : TM S X F unit) (t : tree E) P G, runs m Leaf P G -> tells_of (fresh m) t (P tt).
Proof.
  intros E F m t P G H s. unfold fresh. cbn [fst snd]. specialize (H s). destruct (m (Leaf, s)) as [[[]|[x|x]|u] [t' s']]; auto. tauto.
Qed.
Lemma g_quiet : forall E A (t : tree E) (o : outcome A) a, o = Ok a -> tells_of (tquiet o) t (fun b => b = a).
Proof. intros E A t o a -> s. cbn. auto. Qed.

Section Tree.
Context {E K : Type} (key : E -> K) (less : K -> K -> call S X bool) (lt : K -> K -> bool) (shape : tree E -> list E -> tree E).
Hypothesis O : strict_total lt.
Hypothesis HL : honest less lt.
Hypothesis HT : forall x, throws less x -> may x.
Hypothesis HS : keeps shape.
Implicit Types (t : tree E) (l : list E) (k : K) (e : E).

Lemma g_less : forall t a b, tells_of (task (less a b)) t (fun r => r = lt a b).
Proof. intros. apply g_task; auto. Qed.

Lemma g_change : forall t l F, runs (tchange shape l) t (fun _ t' => elems t' = l) F.
Proof. intros t l F s. cbn. apply HS. Qed.

(** The sequence is [a ++ b] with the keys of [a] before [k] and those of [b] not. *)
Definition split_at k l a b : Prop := l = a ++ b /\ (forall e, In e a -> lt (key e) k = true) /\ (forall e, In e b -> lt (key e) k = false).
Definition cut_at k l a b : Prop := l = a ++ b /\ (forall e, In e a -> lt k (key e) = false) /\ (forall e, In e b -> lt k (key e) = true).

Notation ordered l := (increasing lt (map key l)).

Lemma ord_app : forall l m, ordered (l ++ m) <-> ordered l /\ ordered m /\ forall e f, In e l -> In f m -> lt (key e) (key f) = true.
Proof.
  intros l m. rewrite map_app, (inc_app lt). split; intros (A & B & C); repeat split; auto.
  - intros e f H I. apply C; apply in_map; auto.
  - intros x y H I. apply in_map_iff in H. apply in_map_iff in I. destruct H as (e & <- & H), I as (f & <- & I). auto.
Qed.
Lemma ord_cons : forall e l, ordered (e :: l) <-> ordered l /\ forall f, In f l -> lt (key e) (key f) = true.
Proof.
  intros e l. cbn [map]. rewrite (inc_cons lt). split; intros (A & B); split; auto.
  - intros f H. apply B, in_map. auto.
  - intros y H. apply in_map_iff in H. destruct H as (f & <- & H). auto.
Qed.

(** The part [w] of the tree that is looked at has [p] before it and [q] behind it. *)
Lemma lower_gives : forall t0 w k p q y,
  ordered (p ++ elems w ++ q) -> (forall e, In e p -> lt (key e) k = true) -> (forall e, In e q -> lt (key e) k = false) ->
  y = (length p + length (elems w))%nat ->
  tells_of (lower_calls key less w k (length p) y) t0 (fun j => exists a b, split_at k (p ++ elems w ++ q) a b /\ j = length a).
Proof.
  intros t0 w k. induction w as [|c l IL e r IR]; intros p q y I A B Y; cbn [lower_calls elems].
  - apply g_ret. split; auto. exists p, q. split; [|cbn in Y; lia]. split; auto.
  - cbn [elems] in *. rewrite <- app_assoc in *. cbn [app] in *.
    eapply g_bind; [apply g_less|auto|]. intros b ->. apply ord_app in I. destruct I as (I1 & I2 & I3).
    pose proof I2 as I2'. apply ord_app in I2. destruct I2 as (I4 & I5 & I6). pose proof I5 as I5'. apply ord_cons in I5. destruct I5 as (I7 & I8).
    destruct (lt (key e) k) eqn:Q.
    + assert (R: p ++ elems l ++ e :: elems r ++ q = (p ++ elems l ++ [e]) ++ elems r ++ q) by (rewrite <- !app_assoc; auto).
      rewrite R. replace (length p + length (elems l) + 1)%nat with (length (p ++ elems l ++ [e])) by (rewrite !app_length; cbn; lia).
      apply IR; auto.
      * rewrite <- R. apply ord_app. auto.
      * intros f F. apply in_app_or in F. destruct F as [F|F]; auto. apply in_app_or in F. destruct F as [F|[<-|[]]]; auto.
        apply (lt_tr lt O) with (key e); auto. apply I6; cbn; auto.
      * rewrite !app_length in *. cbn in *. lia.
    + replace (p ++ elems l ++ e :: elems r ++ q) with (p ++ elems l ++ (e :: elems r ++ q)) by auto.
      apply IL; auto.
      * apply ord_app. auto.
      * intros f [<-|F]; auto. apply in_app_or in F. destruct F as [F|F]; auto. destruct (lt (key f) k) eqn:Z; auto.
        rewrite (lt_tr lt O (key e) (key f) k) in Q; auto. apply I8, in_or_app. auto.
Qed.

Lemma upper_gives : forall t0 w k p q y,
  ordered (p ++ elems w ++ q) -> (forall e, In e p -> lt k (key e) = false) -> (forall e, In e q -> lt k (key e) = true) ->
  y = (length p + length (elems w))%nat ->
  tells_of (upper_calls key less w k (length p) y) t0 (fun j => exists a b, cut_at k (p ++ elems w ++ q) a b /\ j = length a).
Proof.
  intros t0 w k. induction w as [|c l IL e r IR]; intros p q y I A B Y; cbn [upper_calls elems].
  - apply g_ret. split; auto. exists p, q. split; [|cbn in Y; lia]. split; auto.
  - cbn [elems] in *. rewrite <- app_assoc in *. cbn [app] in *.
    eapply g_bind; [apply g_less|auto|]. intros b ->. apply ord_app in I. destruct I as (I1 & I2 & I3).
    pose proof I2 as I2'. apply ord_app in I2. destruct I2 as (I4 & I5 & I6). pose proof I5 as I5'. apply ord_cons in I5. destruct I5 as (I7 & I8).
    destruct (lt k (key e)) eqn:Q.
    + replace (p ++ elems l ++ e :: elems r ++ q) with (p ++ elems l ++ (e :: elems r ++ q)) by auto.
      apply IL; auto.
      * apply ord_app. auto.
      * intros f [<-|F]; auto. apply (lt_tr lt O) with (key e); auto.
    + assert (R: p ++ elems l ++ e :: elems r ++ q = (p ++ elems l ++ [e]) ++ elems r ++ q) by (rewrite <- !app_assoc; auto).
      rewrite R. replace (length p + length (elems l) + 1)%nat with (length (p ++ elems l ++ [e])) by (rewrite !app_length; cbn; lia).
      apply IR; auto.
      * rewrite <- R. apply ord_app. auto.
      * intros f F. apply in_app_or in F. destruct F as [F|F]; auto. apply in_app_or in F. destruct F as [F|[<-|[]]]; auto.
        destruct (lt k (key f)) eqn:Z; auto. rewrite (lt_tr lt O k (key f) (key e)) in Q; auto. apply I6; cbn; auto.
      * rewrite !app_length in *. cbn in *. lia.
Qed.

Lemma range_gives : forall t0 w k p q y,
  ordered (p ++ elems w ++ q) -> (forall e, In e p -> lt (key e) k = true) -> (forall e, In e q -> lt k (key e) = true) ->
  y = (length p + length (elems w))%nat ->
  tells_of (range_calls key less w k (length p) y) t0 (fun az => exists a b c d, split_at k (p ++ elems w ++ q) a b /\ cut_at k (p ++ elems w ++ q) c d /\
    az = (length a, length c)).
Proof.
  intros t0 w k. induction w as [|cc l IL e r IR]; intros p q y I A B Y; cbn [range_calls elems].
  - apply g_ret. split; auto. exists p, q, p, q. cbn [app elems] in *. cbn in Y. rewrite Nat.add_0_r in Y. subst y. repeat split; auto.
    + intros f F. apply (lt_asym lt O). auto.
    + intros f F. apply (lt_asym lt O). auto.
  - cbn [elems] in *. rewrite <- app_assoc in *. cbn [app] in *.
    eapply g_bind; [apply g_less|auto|]. intros b ->. pose proof I as I'. apply ord_app in I. destruct I as (I1 & I2 & I3).
    pose proof I2 as I2'. apply ord_app in I2. destruct I2 as (I4 & I5 & I6). pose proof I5 as I5'. apply ord_cons in I5. destruct I5 as (I7 & I8).
    assert (R: p ++ elems l ++ e :: elems r ++ q = (p ++ elems l ++ [e]) ++ elems r ++ q) by (rewrite <- !app_assoc; auto).
    assert (RL: (length p + length (elems l) + 1)%nat = length (p ++ elems l ++ [e])) by (rewrite !app_length; cbn; lia).
    destruct (lt (key e) k) eqn:Q.
    + rewrite R, RL. apply IR; auto.
      * rewrite <- R. auto.
      * intros f F. apply in_app_or in F. destruct F as [F|F]; auto. apply in_app_or in F. destruct F as [F|[<-|[]]]; auto.
        apply (lt_tr lt O) with (key e); auto. apply I6; cbn; auto.
      * rewrite !app_length in *. cbn in *. lia.
    + eapply g_bind; [apply g_less|auto|]. intros b ->. destruct (lt k (key e)) eqn:P.
      * replace (p ++ elems l ++ e :: elems r ++ q) with (p ++ elems l ++ (e :: elems r ++ q)) by auto.
        apply IL; auto. intros f [<-|F]; auto. apply (lt_tr lt O) with (key e); auto.
      * pose proof (lt_neither lt O _ _ Q P) as <-. rewrite RL, R.
        eapply g_bind; [apply (lower_gives t0 l (key e) p (e :: elems r ++ q)); auto|auto|].
        { intros f [<-|F]; [apply (lt_irr lt O)|]. apply (lt_asym lt O). auto. }
        intros j (a & b & AB & ->).
        eapply g_bind; [apply (upper_gives t0 r (key e) (p ++ elems l ++ [e]) q); auto|auto|].
        { rewrite <- R. auto. }
        { intros f F. apply in_app_or in F. destruct F as [F|F]; [apply (lt_asym lt O); auto|]. apply in_app_or in F.
          destruct F as [F|[<-|[]]]; [|apply (lt_irr lt O)]. apply (lt_asym lt O). apply I6; cbn; auto. }
        { rewrite !app_length in *. cbn in *. lia. }
        intros j (c & d & CD & ->). apply g_ret. split; auto. exists a, b, c, d. rewrite <- R at 1. auto.
Qed.

Lemma descend_gives : forall t0 w k p q (y : option nat) (left : bool),
  ordered (p ++ elems w ++ q) -> (forall e, In e p -> lt k (key e) = false) -> (forall e, In e q -> lt k (key e) = true) ->
  match y with
  | None => p = [] /\ q = []
  | Some i => (if left then i = length p + length (elems w) /\ q <> [] else i + 1 = length p)%nat
  end ->
  tells_of (descend_calls key less w k (length p) y left) t0 (fun r => exists a b, cut_at k (p ++ elems w ++ q) a b /\
    match fst r with
    | None => p ++ elems w ++ q = []
    | Some i => if snd r then i = length a /\ b <> [] else (i + 1)%nat = length a
    end).
Proof.
  intros t0 w k. induction w as [|cc l IL e r IR]; intros p q y left I A B Y; cbn [descend_calls elems].
  - apply g_ret. split; auto. exists p, q. split; [split; auto|]. cbn [fst snd app elems length] in *. destruct y as [i|].
    + rewrite Nat.add_0_r in Y. destruct left; auto.
    + destruct Y as (-> & ->). auto.
  - cbn [elems] in *. rewrite <- app_assoc in *. cbn [app] in *.
    eapply g_bind; [apply g_less|auto|]. intros b ->. pose proof I as I'. apply ord_app in I. destruct I as (I1 & I2 & I3).
    pose proof I2 as I2'. apply ord_app in I2. destruct I2 as (I4 & I5 & I6). pose proof I5 as I5'. apply ord_cons in I5. destruct I5 as (I7 & I8).
    assert (R: p ++ elems l ++ e :: elems r ++ q = (p ++ elems l ++ [e]) ++ elems r ++ q) by (rewrite <- !app_assoc; auto).
    assert (RL: (length p + length (elems l) + 1)%nat = length (p ++ elems l ++ [e])) by (rewrite !app_length; cbn; lia).
    destruct (lt k (key e)) eqn:Q.
    + replace (p ++ elems l ++ e :: elems r ++ q) with (p ++ elems l ++ (e :: elems r ++ q)) by auto.
      apply IL; auto.
      * intros f [<-|F]; auto. apply (lt_tr lt O) with (key e); auto.
      * split; auto. discriminate.
    + rewrite RL, R. apply IR; auto.
      * rewrite <- R. auto.
      * intros f F. apply in_app_or in F. destruct F as [F|F]; auto. apply in_app_or in F. destruct F as [F|[<-|[]]]; auto.
        destruct (lt k (key f)) eqn:Z; auto. rewrite (lt_tr lt O k (key f) (key e)) in Q; auto. apply I6; cbn; auto.
Qed.

Lemma find_gives : forall t k, ordered (elems t) ->
  tells_of (find_tree key less k) t (fun o => match o with
    | Some j => exists a e b, elems t = a ++ e :: b /\ key e = k /\ j = length a
    | None => forall e, In e (elems t) -> key e <> k
    end).
Proof.
  intros t k I. unfold find_tree. eapply g_bind; [apply g_get|auto|]. intros t' ->.
  eapply g_bind; [apply (lower_gives t t k [] []); cbn; auto; rewrite ?app_nil_r; auto; contradiction|auto|].
  cbn [app]. rewrite app_nil_r. intros j (a & b & (AB & A & B) & ->). rewrite AB, app_length. rewrite AB in I.
  destruct b as [|e b]; cbn [length].
  - rewrite Nat.add_0_r, Nat.eqb_refl. apply g_ret. split; auto. intros e H. rewrite app_nil_r in H. intros <-. specialize (A e H). rewrite (lt_irr lt O) in A. discriminate.
  - destruct (Nat.eqb_spec (length a) (length a + Datatypes.S (length b))); [lia|].
    eapply g_bind; [apply (g_elem _ t (length a) e); rewrite AB, nth_error_app2, Nat.sub_diag by lia; auto|auto|]. intros e' ->.
    eapply g_bind; [apply g_less|auto|]. intros r ->. apply g_ret. split; auto. destruct (lt k (key e)) eqn:Q.
    + intros f F <-. apply in_app_or in F. destruct F as [F|[<-|F]].
      * specialize (A f F). rewrite (lt_irr lt O) in A. discriminate.
      * rewrite (lt_irr lt O) in Q. discriminate.
      * apply ord_app in I. destruct I as (_ & I & _). apply ord_cons in I. destruct I as (_ & I). specialize (I f F). rewrite (lt_asym lt O _ _ I) in Q. discriminate.
    + exists a, e, b. split; auto. split; auto. apply (lt_neither lt O); auto. apply B. cbn. auto.
Qed.

(** [e] goes before the keys that are larger, unless its key is there. *)
Definition inserted e l (b : bool) l' : Prop :=
  (b = true /\ exists a c, cut_at (key e) l a c /\ l' = a ++ e :: c /\ forall f, In f l -> key f <> key e) \/
  (b = false /\ l' = l /\ exists f, In f l /\ key f = key e).

Lemma link_gives : forall t e y a b, cut_at (key e) (elems t) a b -> (forall f, In f (elems t) -> key f <> key e) ->
  match y with
  | None => elems t = []
  | Some i => (i = length a /\ b <> []) \/ (i + 1)%nat = length a
  end -> gives (link key less shape e y) t (fun _ t' => elems t' = a ++ e :: b).
Proof.
  intros t e y a b (AB & A & B) N Y. unfold link. eapply g_bind; [apply g_get|auto|]. intros t' ->. destruct y as [i|].
  - assert (exists p, nth_error (elems t) i = Some p /\ (if lt (key e) (key p) then i = length a else (i + 1)%nat = length a)) as (p & P & Q).
    { destruct Y as [(-> & Y)|Y].
      - destruct b as [|p b]; [contradiction|]. exists p. rewrite AB, nth_error_app2, Nat.sub_diag by lia. split; auto. rewrite B; cbn; auto.
      - destruct (exists_last (l := a)) as (a' & p & ->); [intros ->; cbn in Y; lia|]. rewrite app_length in Y. cbn in Y. exists p.
        rewrite AB, <- app_assoc, nth_error_app2 by lia. replace (i - length a')%nat with 0%nat by lia. split; auto.
        rewrite A by (apply in_or_app; cbn; auto). rewrite app_length. cbn. lia. }
    eapply g_bind; [apply g_elem; eauto|auto|]. intros p' ->. eapply g_bind; [apply g_less|auto|]. intros r ->.
    assert ((if lt (key e) (key p) then i else (i + 1)%nat) = length a) as -> by (destruct (lt (key e) (key p)); auto).
    eapply g_conseq; [apply (g_change t _ (fun t' => t' = t))| |auto]. intros _ t' ->. rewrite AB, firstn_app, Nat.sub_diag, firstn_all, skipn_app, Nat.sub_diag, skipn_all. cbn. rewrite app_nil_r. auto.
  - rewrite Y in AB. symmetry in AB. apply app_eq_nil in AB. destruct AB as (-> & ->).
    eapply g_conseq; [apply (g_change t _ (fun t' => t' = t))| |auto]. intros _ t' ->. rewrite Y. auto.
Qed.

Lemma before_gives : forall t (y : option nat) j e k (r : bool) a' b', nth_error (elems t) j = Some e -> cut_at k (elems t) (a' ++ [e]) b' -> ordered (elems t) ->
  tells_of (f <~ telem j ;; b <~ task (less (key f) k) ;; tret (if b then Some y else None)) t
    (fun o => (o = Some y /\ forall f, In f (elems t) -> key f <> k) \/ (o = None /\ exists f, In f (elems t) /\ key f = k)).
Proof.
  intros t y j e k r a' b' J (AB & A & B) I. eapply g_bind; [apply g_elem; eauto|auto|]. intros e' ->.
  eapply g_bind; [apply g_less|auto|]. intros b ->. apply g_ret. split; auto. destruct (lt (key e) k) eqn:Q; [left|right]; split; auto.
  - intros f F <-. rewrite AB in F, I. apply in_app_or in F. destruct F as [F|F].
    + apply in_app_or in F. destruct F as [F|[->|[]]]; [|rewrite (lt_irr lt O) in Q; discriminate].
      apply ord_app in I. destruct I as (I & _ & _). apply ord_app in I. destruct I as (_ & _ & I). specialize (I f e F). rewrite (lt_asym lt O _ _ (I (or_introl eq_refl))) in Q. discriminate.
    + specialize (B f F). rewrite (lt_irr lt O) in B. discriminate.
  - exists e. split; [eapply nth_error_In; eauto|]. apply (lt_neither lt O); auto. apply A, in_or_app. cbn. auto.
Qed.

Lemma pos_gives : forall t k, ordered (elems t) ->
  tells_of (unique_pos key less k) t (fun o => match o with
    | Some y => (forall f, In f (elems t) -> key f <> k) /\ exists a b, cut_at k (elems t) a b /\
        match y with None => elems t = [] | Some i => (i = length a /\ b <> []) \/ (i + 1)%nat = length a end
    | None => exists f, In f (elems t) /\ key f = k
    end).
Proof.
  intros t k I. unfold unique_pos. eapply g_bind; [apply g_get|auto|]. intros t' ->.
  eapply g_bind; [apply (descend_gives t t k [] []); cbn; auto; rewrite ?app_nil_r; auto; contradiction|auto|].
  cbn [app]. rewrite app_nil_r. intros (y & c) (a & b & AB & Y). cbn [fst snd] in *.
  destruct y as [i|].
  2:{ apply g_ret. split; auto. split; [intros f F; rewrite Y in F; contradiction|]. exists a, b. auto. }
  assert (H: forall j e a', nth_error (elems t) j = Some e -> a = a' ++ [e] -> ((i = length a /\ b <> []) \/ (i + 1)%nat = length a) ->
    tells_of (e <~ telem j ;; r <~ task (less (key e) k) ;; tret (if r then Some (Some i) else None)) t (fun o => match o with
    | Some y => (forall f, In f (elems t) -> key f <> k) /\ exists a b, cut_at k (elems t) a b /\
        match y with None => elems t = [] | Some i => (i = length a /\ b <> []) \/ (i + 1)%nat = length a end
    | None => exists f, In f (elems t) /\ key f = k
    end)).
  { intros j e a' J -> Y2. eapply g_conseq; [eapply (before_gives t (Some i) j e k true a' b); eauto| |auto].
    intros o t' (-> & [(-> & N)|(-> & N)]); split; auto. split; auto. eauto. }
  assert (J: forall j, (j + 1)%nat = length a -> exists e a', nth_error (elems t) j = Some e /\ a = a' ++ [e]).
  { intros j L. destruct (exists_last (l := a)) as (a' & e & ->); [intros ->; cbn in L; lia|]. rewrite app_length in L. cbn in L. exists e, a'.
    destruct AB as (-> & _). rewrite <- app_assoc, nth_error_app2 by lia. replace (j - length a')%nat with 0%nat by lia. auto. }
  destruct c.
  - destruct i as [|j].
    + apply g_ret. split; auto. destruct Y as (L & NB). split; [|exists a, b; split; auto]. destruct a as [|x a]; [|cbn in L; lia]. destruct AB as (-> & _ & B).
      intros f F <-. specialize (B f F). rewrite (lt_irr lt O) in B. discriminate.
    + destruct Y as (L & NB). destruct (J j) as (e & a' & N & ->); [lia|]. eapply (H j e a'); auto.
  - destruct (J i Y) as (e & a' & N & ->). destruct i; eapply (H _ e a'); auto.
Qed.

Lemma insert_gives : forall t e, ordered (elems t) -> gives (insert_tree key less shape e) t (fun b t' => inserted e (elems t) b (elems t') /\ (b = false -> t' = t)).
Proof.
  intros t e I. unfold insert_tree. eapply g_bind; [apply pos_gives; auto|auto|]. intros [y|] P.
  - destruct P as (N & a & b & AB & Y). apply (g_last _ _ _ _ (fun _ => true)) with (P := fun _ t' => elems t' = a ++ e :: b).
    + apply link_gives; auto.
    + intros _ t' ->. split; [|discriminate]. left. split; auto. exists a, b. auto.
  - apply g_ret. split; auto. right. auto.
Qed.

Lemma insert_end_gives : forall t e, ordered (elems t) -> gives (insert_end key less shape e) t (fun _ t' => exists b, inserted e (elems t) b (elems t')).
Proof.
  intros t e I. unfold insert_end. eapply g_bind; [apply g_get|auto|]. intros t' ->. cbn zeta.
  eapply g_bind with (P := fun r : bool => r = true -> (elems t <> [] /\ forall f, In f (elems t) -> lt (key f) (key e) = true)); [|auto|].
  - destruct (Nat.eqb_spec (length (elems t)) 0).
    + apply g_ret. split; auto. discriminate.
    + destruct (exists_last (l := elems t)) as (a & p & Q); [intros H; rewrite H in *; cbn in *; lia|].
      eapply g_bind; [apply (g_elem _ t _ p); rewrite Q, app_length, nth_error_app2 by (cbn; lia); cbn; replace (length a + 1 - 1 - length a)%nat with 0%nat by lia; auto|auto|].
      intros p' ->. eapply g_conseq; [apply g_less| |auto]. cbn beta. intros r t' (-> & ->). split; auto. intros L. split; [destruct (elems t); [destruct a; discriminate|discriminate]|].
      rewrite Q in *. intros f F. apply in_app_or in F. destruct F as [F|[<-|[]]]; auto. apply ord_app in I. destruct I as (_ & _ & I).
      apply (lt_tr lt O) with (key p); auto. apply I; cbn; auto.
  - intros [|] P.
    + destruct (P eq_refl) as (N & L). assert (C: cut_at (key e) (elems t) (elems t) []).
      { split; [rewrite app_nil_r; auto|]. split; [|intros f []]. intros f F. apply (lt_asym lt O). auto. }
      assert (D: forall f, In f (elems t) -> key f <> key e) by (intros f F; apply (lt_ne lt O); auto).
      eapply g_conseq; [apply (link_gives t e _ (elems t) []); auto| |auto].
      * right. destruct (elems t); [contradiction|cbn; lia].
      * cbn beta. intros _ t' Q. exists true. left. split; auto. exists (elems t), []. auto.
    + apply (g_last _ _ _ _ (fun _ => tt)) with (P := fun b t' => inserted e (elems t) b (elems t') /\ (b = false -> t' = t)).
      * apply insert_gives. auto.
      * intros b t' (Q & _). eauto.
Qed.

Lemma cut_ordered : forall e l a b, ordered l -> cut_at (key e) l a b -> (forall f, In f l -> key f <> key e) -> ordered (a ++ e :: b).
Proof.
  intros e l a b I (-> & A & B) N. apply ord_app in I. destruct I as (I1 & I2 & I3). apply ord_app. split; auto. split.
  - apply ord_cons. auto.
  - intros f g F [<-|G]; auto. destruct (lt (key f) (key e)) eqn:Q; auto. exfalso. apply (N f); [apply in_or_app; auto|]. apply (lt_neither lt O); auto.
Qed.
Lemma inserted_ordered : forall e l b l', ordered l -> inserted e l b l' -> ordered l'.
Proof.
  intros e l b l' I [(_ & a & c & C & -> & N)|(_ & -> & _)]; auto. eapply cut_ordered; eauto.
Qed.

(** The elements of the range one after the other. *)
Inductive filled : list E -> list E -> list E -> Prop :=
| fl_nil : forall l, filled [] l l
| fl_cons : forall e xs l b l1 l2, inserted e l b l1 -> filled xs l1 l2 -> filled (e :: xs) l l2.

Lemma all_gives : forall xs t, ordered (elems t) -> runs (insert_all key less shape xs) t (fun _ t' => filled xs (elems t) (elems t'))
  (fun t' => exists a e b, xs = a ++ e :: b /\ filled a (elems t) (elems t')).
Proof.
  induction xs as [|e xs IH]; intros t I; cbn [insert_all].
  - apply g_ret. constructor.
  - eapply g_seq with (P := fun _ t' => exists b, inserted e (elems t) b (elems t')).
    + eapply g_conseq; [apply insert_end_gives; auto|auto|]. cbn beta. intros t' ->. exists [], e, xs. split; auto. constructor.
    + intros _ t' (b & Q). eapply g_conseq; [apply IH; eapply inserted_ordered; eauto| |]; cbn beta.
      * intros _ t2 F. econstructor; eauto.
      * intros t2 (a & e' & c & -> & F). exists (e :: a), e', c. split; auto. econstructor; eauto.
Qed.

Lemma filled_ordered : forall xs l l', filled xs l l' -> ordered l -> ordered l'.
Proof. intros xs l l' F. induction F; auto. intros I. apply IHF. eapply inserted_ordered; eauto. Qed.

Lemma cut_unique : forall k l m u v, l ++ m = u ++ v -> (forall g, In g l -> lt k (key g) = false) -> (forall g, In g m -> lt k (key g) = true) ->
  (forall g, In g u -> lt k (key g) = false) -> (forall g, In g v -> lt k (key g) = true) -> l = u /\ m = v.
Proof.
  intros k. induction l as [|g l IH]; intros m u v H X1 Y1 U1 V1; destruct u as [|h u]; cbn in H.
  - auto.
  - subst m. specialize (Y1 h (or_introl eq_refl)). rewrite U1 in Y1 by (cbn; auto). discriminate.
  - subst v. specialize (V1 g (or_introl eq_refl)). rewrite X1 in V1 by (cbn; auto). discriminate.
  - injection H as -> H. destruct (IH m u v) as (-> & ->); auto; intros g' G; cbn in *; auto.
Qed.

Lemma erase_gives : forall t k, ordered (elems t) -> gives (erase_tree key less shape k) t (fun n t' =>
  (n = 1%nat /\ exists a f c, elems t = a ++ f :: c /\ key f = k /\ elems t' = a ++ c) \/
  (n = 0%nat /\ t' = t /\ forall f, In f (elems t) -> key f <> k)).
Proof.
  intros t k I. unfold erase_tree. eapply g_bind; [apply g_get|auto|]. intros t' ->.
  eapply g_bind; [apply (range_gives t t k [] []); cbn; auto; rewrite ?app_nil_r; auto; contradiction|auto|].
  cbn [app]. rewrite app_nil_r. intros az (a & b & c & d & (AB & A & B) & (CD & C & D) & ->).
  destruct b as [|f b].
  - assert (c = a /\ d = []) as (-> & ->).
    { destruct d as [|f d]; [rewrite app_nil_r in *; subst; auto|]. exfalso. assert (F: In f a) by (rewrite app_nil_r in AB; rewrite <- AB, CD; apply in_or_app; cbn; auto).
      specialize (A f F). specialize (D f (or_introl eq_refl)). rewrite (lt_asym lt O _ _ A) in D. discriminate D. }
    destruct (Nat.ltb_spec (length a) (length a)); [lia|]. rewrite Nat.eqb_refl. apply g_ret. right. split; auto. split; auto.
    rewrite AB, app_nil_r. intros f F <-. specialize (A f F). rewrite (lt_irr lt O) in A. discriminate.
  - destruct (lt k (key f)) eqn:Q.
    + assert (c = a /\ d = f :: b) as (-> & ->).
      { apply (cut_unique k); auto; [rewrite <- CD; auto|intros g G; apply (lt_asym lt O); auto|].
        intros g [<-|G]; auto. rewrite AB in I. apply ord_app in I. destruct I as (_ & I & _). apply ord_cons in I. destruct I as (_ & I).
        apply (lt_tr lt O) with (key f); auto. }
      destruct (Nat.ltb_spec (length a) (length a)); [lia|]. rewrite Nat.eqb_refl. apply g_ret. right. split; auto. split; auto.
      rewrite AB. intros g G <-. apply in_app_or in G. destruct G as [G|G].
      * specialize (A g G). rewrite (lt_irr lt O) in A. discriminate.
      * specialize (D g G). rewrite (lt_irr lt O) in D. discriminate.
    + pose proof (lt_neither lt O _ _ (B f (or_introl eq_refl)) Q) as KF.
      assert (c = a ++ [f] /\ d = b) as (-> & ->).
      { apply (cut_unique k); auto; [rewrite <- app_assoc; cbn; rewrite <- CD; auto| |].
        - intros g G. apply in_app_or in G. destruct G as [G|[<-|[]]]; auto. apply (lt_asym lt O). auto.
        - intros g G. rewrite AB in I. apply ord_app in I. destruct I as (_ & I & _). apply ord_cons in I. destruct I as (_ & I). rewrite <- KF. auto. }
      rewrite app_length. cbn [length]. destruct (Nat.ltb_spec (length a + 1) (length a)); [lia|]. destruct (Nat.eqb_spec (length a) (length a + 1)); [lia|].
      replace (length a + 1 - length a)%nat with 1%nat by lia.
      apply (g_last _ _ _ _ (fun _ => 1%nat)) with (P := fun _ t' => elems t' = a ++ b).
      * eapply g_conseq; [apply (g_change t _ (fun t' => t' = t))| |auto]. cbn beta. intros _ t' ->. rewrite AB.
        rewrite firstn_app, Nat.sub_diag, firstn_all, skipn_app. cbn [firstn]. rewrite skipn_all2 by lia. replace (length a + 1 - length a)%nat with 1%nat by lia.
        cbn. rewrite app_nil_r. auto.
      * intros _ t' E'. left. split; auto. exists a, f, b. auto.
Qed.
End Tree.
End Gives.
