(** How many comparisons the members of Set make. *)
From Coq Require Import ZArith List Bool Lia.
From Verif Require Import Outcome ListModel ListSpec ListFacts ListCallModel SetModel SetSpec SetFacts TreeModel SetTreeModel DictTreeModel TreeSpec TreeFacts.
Import ListNotations.
Open Scope nat_scope.

(** ** Red-black trees are shallow *)
Lemma rb_depth : forall E c h (t : tree E), red_black c h t -> depth t <= 2 * h + (if c then 1 else 0) /\ 2 ^ h <= length (elems t) + 1.
Proof.
  intros E c h t H. induction H as [|h l e r L IL R IR|h l e r c d L IL R IR]; cbn [depth elems length].
  - cbn. lia.
  - rewrite app_length. cbn [length]. lia.
  - rewrite app_length. cbn [length Nat.pow]. destruct c, d; lia.
Qed.
Theorem rb_log : forall E h (t : tree E), red_black false h t -> depth t <= 2 * Nat.log2 (length (elems t) + 1).
Proof.
  intros E h t H. destruct (rb_depth E false h t H) as (D & P).
  apply Nat.log2_le_mono in P. rewrite Nat.log2_pow2 in P by lia. lia.
Qed.

Section Cost.
Context {X E : Type}.

Definition costs {A} (m : TM nat X E A) (t : tree E) (n : nat) (P : A -> tree E -> Prop) : Prop := forall q,
  match m (t, q) with
  | (CRet a, (t', q')) => q' <= q + n /\ P a t'
  | (_, (_, q')) => q' <= q + n
  end.
Lemma k_conseq : forall A (m : TM nat X E A) t n k (P Q : A -> tree E -> Prop), costs m t n P -> n <= k -> (forall a t', P a t' -> Q a t') -> costs m t k Q.
Proof. intros A m t n k P Q H L I q. specialize (H q). destruct (m (t, q)) as [[a|x|u] [t' q']]; try lia. destruct H. split; auto. lia. Qed.
Lemma k_ret : forall A (a : A) t (P : A -> tree E -> Prop), P a t -> costs (tret a) t 0 P.
Proof. intros A a t P H q. cbn. split; auto. lia. Qed.
Lemma k_bind : forall A B (m : TM nat X E A) (f : A -> TM nat X E B) t n k (P : A -> tree E -> Prop) Q, costs m t n P ->
  (forall a t', P a t' -> costs (f a) t' k Q) -> costs (tbind m f) t (n + k) Q.
Proof.
  intros A B m f t n k P Q M F q. unfold tbind. specialize (M q). destruct (m (t, q)) as [[a|x|u] [t' q']]; try lia.
  destruct M as (L & H). specialize (F a t' H q'). destruct (f a (t', q')) as [[b|x|u] [t2 q2]]; lia || (split; [lia|tauto]).
Qed.
Lemma k_then : forall A B (m : TM nat X E A) (f : A -> TM nat X E B) t n k j (P : A -> tree E -> Prop) Q, costs m t n P ->
  (forall a t', P a t' -> costs (f a) t' k Q) -> n + k <= j -> costs (tbind m f) t j Q.
Proof. intros. eapply k_conseq; [eapply k_bind; eauto|auto|auto]. Qed.
Lemma k_get : forall t, costs tget t 0 (fun a t' => a = t /\ t' = t).
Proof. intros t q. cbn. split; auto. lia. Qed.
Lemma k_elem : forall i t, costs (telem i) t 0 (fun a t' => nth_error (elems t) i = Some a /\ t' = t).
Proof. intros i t q. unfold telem. cbn [fst]. destruct (nth_error (elems t) i); [split; auto; lia|lia]. Qed.
Lemma k_quiet : forall A (o : outcome A) t, costs (tquiet o) t 0 (fun a t' => o = Ok a /\ t' = t).
Proof. intros A o t q. destruct o; cbn; try (split; auto); lia. Qed.
Lemma k_task : forall T (f : T -> T -> bool) a b t, costs (task (patient f a b)) t 1 (fun r t' => r = f a b /\ t' = t).
Proof. intros T f a b t q. cbn. split; auto. lia. Qed.
Lemma k_put : forall n t, costs (tput n) t 0 (fun _ t' => t' = n).
Proof. intros n t q. cbn. split; auto. lia. Qed.
Definition still {A} : A -> tree E -> Prop := fun _ _ => True.
End Cost.
Lemma k_fresh : forall X E F (m : TM nat X F unit) (t : tree E) n P, costs m Leaf n P -> costs (fresh m) t n (fun r t' => P tt r /\ t' = t).
Proof. intros X E F m t n P H q. unfold fresh. cbn [fst snd]. specialize (H q). destruct (m (Leaf, q)) as [[[]|x|u] [t' q']]; auto. destruct H. split; auto. Qed.

Section Tree.
Context {X E K : Type} (key : E -> K) (lt : K -> K -> bool) (shape : tree E -> list E -> tree E).
Notation costs := (costs (X := X) (E := E)).
Notation less := (patient lt).

Lemma lower_costs : forall s k lo y t, costs (lower_calls key less s k lo y) t (depth s) (fun _ t' => t' = t).
Proof.
  induction s as [|c l IL e r IR]; intros k lo y t; cbn [lower_calls depth]; [apply k_ret; auto|].
  eapply k_then; [apply k_task| |]; [|apply (Nat.le_refl (1 + Nat.max (depth l) (depth r)))]. cbn beta. intros b t' (_ & ->).
  destruct b; (eapply k_conseq; [apply IR || apply IL|lia|auto]).
Qed.
Lemma upper_costs : forall s k lo y t, costs (upper_calls key less s k lo y) t (depth s) (fun _ t' => t' = t).
Proof.
  induction s as [|c l IL e r IR]; intros k lo y t; cbn [upper_calls depth]; [apply k_ret; auto|].
  eapply k_then; [apply k_task| |]; [|apply (Nat.le_refl (1 + Nat.max (depth l) (depth r)))]. cbn beta. intros b t' (_ & ->).
  destruct b; (eapply k_conseq; [apply IR || apply IL|lia|auto]).
Qed.
Lemma descend_costs : forall s k lo y b t, costs (descend_calls key less s k lo y b) t (depth s) (fun _ t' => t' = t).
Proof.
  induction s as [|c l IL e r IR]; intros k lo y b t; cbn [descend_calls depth]; [apply k_ret; auto|].
  eapply k_then; [apply k_task| |]; [|apply (Nat.le_refl (1 + Nat.max (depth l) (depth r)))]. cbn beta. intros b' t' (_ & ->).
  destruct b'; (eapply k_conseq; [apply IR || apply IL|lia|auto]).
Qed.
Lemma range_costs : forall s k lo y t, costs (range_calls key less s k lo y) t (2 * depth s) (fun _ t' => t' = t).
Proof.
  induction s as [|c l IL e r IR]; intros k lo y t; cbn [range_calls depth]; [apply k_ret; auto|].
  eapply (k_then _ _ _ _ _ 1 (1 + 2 * Nat.max (depth l) (depth r))); [apply k_task| |lia]. cbn beta. intros b t' (_ & ->). destruct b.
  - eapply k_conseq; [apply IR|lia|auto].
  - eapply (k_then _ _ _ _ _ 1 (2 * Nat.max (depth l) (depth r))); [apply k_task| |lia]. cbn beta. intros b t' (_ & ->). destruct b.
    + eapply k_conseq; [apply IL|lia|auto].
    + eapply (k_then _ _ _ _ _ (depth l) (depth r)); [apply lower_costs| |lia]. cbn beta. intros a t' ->.
      eapply (k_then _ _ _ _ _ (depth r) 0); [apply upper_costs| |lia]. cbn beta. intros z t' ->. apply k_ret. auto.
Qed.
Lemma find_costs : forall k t, costs (find_tree key less k) t (depth t + 1) (fun _ t' => t' = t).
Proof.
  intros k t. unfold find_tree. eapply (k_then _ _ _ _ _ 0 (depth t + 1)); [apply k_get| |lia]. cbn beta. intros a t' (-> & ->).
  eapply (k_then _ _ _ _ _ (depth t) 1); [apply lower_costs| |lia]. cbn beta. intros j t' ->. destruct (Nat.eqb j (length (elems t))).
  - eapply k_conseq; [apply k_ret with (P := fun _ t' => t' = t); reflexivity|lia|auto].
  - eapply (k_then _ _ _ _ _ 0 1); [apply k_elem| |lia]. cbn beta. intros e t' (_ & ->).
    eapply (k_then _ _ _ _ _ 1 0); [apply k_task| |lia]. cbn beta. intros b t' (_ & ->). apply k_ret. auto.
Qed.
Lemma pos_costs : forall k t, costs (unique_pos key less k) t (depth t + 1) (fun _ t' => t' = t).
Proof.
  intros k t. unfold unique_pos. eapply (k_then _ _ _ _ _ 0 (depth t + 1)); [apply k_get| |lia]. cbn beta. intros a t' (-> & ->).
  eapply (k_then _ _ _ _ _ (depth t) 1); [apply descend_costs| |lia]. cbn beta. intros yc t' ->.
  assert (B: forall j, costs (e <~ telem j ;; b <~ task (patient lt (key e) k) ;; tret (if b then Some (fst yc) else None)) t 1 (fun _ t' => t' = t)).
  { intros j. eapply (k_then _ _ _ _ _ 0 1); [apply k_elem| |lia]. cbn beta. intros e t' (_ & ->).
    eapply (k_then _ _ _ _ _ 1 0); [apply k_task| |lia]. cbn beta. intros b t' (_ & ->). apply k_ret. auto. }
  destruct yc as [[[|j]|] [|]]; try apply B; (eapply k_conseq; [apply k_ret with (P := fun _ t' => t' = t); reflexivity|lia|auto]).
Qed.
Lemma change_costs : forall l t, costs (tchange shape l) t 0 (fun _ t' => t' = shape t l).
Proof. intros l t. unfold tchange. eapply (k_then _ _ _ _ _ 0 0); [apply k_get| |lia]. cbn beta. intros a t' (-> & ->). apply k_put. Qed.
Lemma link_costs : forall e y t, costs (link key less shape e y) t 1 (fun _ t' => exists l, t' = shape t l /\ length l = length (elems t) + 1).
Proof.
  intros e y t. unfold link. eapply (k_then _ _ _ _ _ 0 1); [apply k_get| |lia]. cbn beta. intros a t' (-> & ->). destruct y as [i|].
  - eapply (k_then _ _ _ _ _ 0 1); [apply k_elem| |lia]. cbn beta. intros p t' (N & ->).
    assert (i < length (elems t)) by (apply nth_error_Some; congruence).
    eapply (k_then _ _ _ _ _ 1 0); [apply k_task| |lia]. cbn beta. intros b t' (_ & ->).
    eapply k_conseq; [apply change_costs|lia|]. cbn beta. intros _ t' ->. eexists. split; [reflexivity|]. rewrite app_length, firstn_length. cbn [length]. rewrite skipn_length.
    destruct b; lia.
  - eapply k_conseq; [apply change_costs|lia|]. cbn beta. intros _ t' ->. eexists. split; [reflexivity|]. cbn [length]. lia.
Qed.
Lemma insert_costs : forall e t, costs (insert_tree key less shape e) t (depth t + 2) (fun _ t' => t' = t \/ exists l, t' = shape t l /\ length l = length (elems t) + 1).
Proof.
  intros e t. unfold insert_tree. eapply (k_then _ _ _ _ _ (depth t + 1) 1); [apply pos_costs| |lia]. cbn beta. intros [y|] t' ->.
  - eapply (k_then _ _ _ _ _ 1 0); [apply link_costs| |lia]. cbn beta. intros _ t' H. apply k_ret. auto.
  - eapply k_conseq; [apply k_ret with (P := fun _ t' => t' = t); reflexivity|lia|]. auto.
Qed.
Lemma erase_costs : forall k t, costs (erase_tree key less shape k) t (2 * depth t) (fun _ _ => True).
Proof.
  intros k t. unfold erase_tree. eapply (k_then _ _ _ _ _ 0 (2 * depth t)); [apply k_get| |lia]. cbn beta. intros a t' (-> & ->).
  eapply (k_then _ _ _ _ _ (2 * depth t) 0); [apply range_costs| |lia]. cbn beta. intros [i z] t' ->.
  destruct (Nat.ltb z i); [intros q; cbn; lia|]. destruct (Nat.eqb i z); [apply k_ret; auto|].
  eapply (k_then _ _ _ _ _ 0 0); [apply change_costs| |lia]. intros _ t' _. apply k_ret. auto.
Qed.
Lemma end_costs : forall e t, costs (insert_end key less shape e) t (depth t + 3) (fun _ t' => t' = t \/ exists l, t' = shape t l /\ length l = length (elems t) + 1).
Proof.
  intros e t. unfold insert_end. eapply (k_then _ _ _ _ _ 0 (depth t + 3)); [apply k_get| |lia]. cbn beta. intros a t' (-> & ->).
  eapply (k_then _ _ _ _ _ 1 (depth t + 2) _ (fun _ t' => t' = t)).
  - destruct (Nat.eqb (length (elems t)) 0); [eapply k_conseq; [apply k_ret with (P := fun _ t' => t' = t); reflexivity|lia|auto]|].
    eapply (k_then _ _ _ _ _ 0 1); [apply k_elem| |lia]. cbn beta. intros p t' (_ & ->). eapply k_conseq; [apply k_task|lia|]. cbn beta. tauto.
  - intros b t' ->. destruct b; [eapply k_conseq; [apply link_costs|lia|auto]|].
    eapply (k_then _ _ _ _ _ (depth t + 2) 0); [apply insert_costs| |lia]. cbn beta. intros _ t' H. apply k_ret. auto.
  - lia.
Qed.
(** A range, when the trees have a bounded depth. *)
Lemma all_costs : forall (h : nat -> nat), (forall i j, i <= j -> h i <= h j) -> (forall t l, depth (shape t l) <= h (length l)) -> keeps shape ->
  forall xs t, depth t <= h (length (elems t)) -> costs (insert_all key less shape xs) t (length xs * (h (length (elems t) + length xs) + 3)) (fun _ _ => True).
Proof.
  intros h HM HD HS. induction xs as [|e xs IH]; intros t D; cbn [insert_all length]; [apply k_ret; auto|].
  pose proof (HM (length (elems t)) (length (elems t) + S (length xs))). 
  eapply (k_then _ _ _ _ _ (h (length (elems t) + S (length xs)) + 3) (length xs * (h (length (elems t) + S (length xs)) + 3))).
  - eapply k_conseq; [apply end_costs|lia|]. intros a t' Q. exact Q.
  - cbn beta. intros _ t' [->|(l & -> & L)].
    + eapply k_conseq; [apply IH; auto| |auto]. apply Nat.mul_le_mono_l. pose proof (HM (length (elems t) + length xs) (length (elems t) + S (length xs))). lia.
    + eapply k_conseq; [apply IH; rewrite HS; apply HD| |auto]. apply Nat.mul_le_mono_l. rewrite HS, L. pose proof (HM (length (elems t) + 1 + length xs) (length (elems t) + S (length xs))). lia.
  - lia.
Qed.
End Tree.

Section Set_.
Context {X T : Type} (lt : T -> T -> bool) (shape : tree T -> list T -> tree T).
Hypothesis O : strict_total lt.
Hypothesis HS : keeps shape.
Notation costs := (costs (X := X) (E := T)).
Notation less := (patient lt).
Notation id := (fun x : T => x).
Definition below (l : list T) (x : T) : Prop := forall y, In y l -> lt y x = true.

Lemma last_nth : forall (l : list T), l <> [] -> exists l' x, l = l' ++ [x] /\ nth_error l (length l - 1) = Some x.
Proof.
  intros l H. destruct (exists_last H) as (l' & x & ->). exists l', x. split; auto. rewrite app_length. cbn [length].
  rewrite nth_error_app2 by lia. replace (length l' + 1 - 1 - length l') with 0 by lia. auto.
Qed.
(** An element above all others goes to the end with two comparisons. *)
Lemma top_costs : forall e t, below (elems t) e -> costs (insert_end id less shape e) t 2 (fun _ t' => elems t' = elems t ++ [e]).
Proof.
  intros e t B. unfold insert_end. eapply (k_then _ _ _ _ _ 0 2); [apply k_get| |lia]. cbn beta. intros a t' (-> & ->).
  assert (N: elems t = [] \/ elems t <> []) by (destruct (elems t); [left|right]; congruence). destruct N as [N|N].
  - rewrite N. cbn [length Nat.eqb]. eapply (k_then _ _ _ _ _ 0 2); [apply k_ret with (P := fun b t' => b = false /\ t' = t); auto| |lia]. cbn beta. intros b t' (-> & ->).
    assert (t = Leaf) as -> by (destruct t as [|c l x r]; auto; cbn in N; destruct (elems l); discriminate).
    intros q. cbn. split; [lia|]. apply HS.
  - destruct (last_nth _ N) as (l' & x & E & NE). destruct (Nat.eqb_spec (length (elems t)) 0) as [Z|_]; [destruct (elems t); [contradiction|discriminate]|].
    assert (LX: lt x e = true) by (apply B; rewrite E; apply in_or_app; cbn; auto).
    eapply (k_then _ _ _ _ _ 1 1 _ (fun b t' => b = true /\ t' = t)); [|cbn beta; intros b t' (-> & ->)|lia].
    + eapply (k_then _ _ _ _ _ 0 1); [apply k_elem| |lia]. cbn beta. intros p t' (NP & ->). rewrite NE in NP. injection NP as <-.
      eapply k_conseq; [apply k_task|lia|]. cbn beta. intros b t' (-> & ->). auto.
    + unfold link. eapply (k_then _ _ _ _ _ 0 1); [apply k_get| |lia]. cbn beta. intros a t' (-> & ->).
      eapply (k_then _ _ _ _ _ 0 1); [apply k_elem| |lia]. cbn beta. intros p t' (NP & ->). rewrite NE in NP. injection NP as <-.
      eapply (k_then _ _ _ _ _ 1 0); [apply k_task| |lia]. cbn beta. intros b t' (-> & ->). rewrite (lt_asym lt O x e LX).
      eapply k_conseq; [apply change_costs|lia|]. cbn beta. intros _ t' ->. rewrite HS.
      replace (length (elems t) - 1 + 1) with (length (elems t)) by (destruct (elems t); [contradiction|cbn; lia]). rewrite firstn_all, skipn_all. auto.
Qed.
(** All of [l] are above all of [o]. *)
Definition above (l o : list T) : Prop := forall x y, In x l -> In y o -> lt y x = true.
Lemma tops_costs : forall l t, increasing lt l -> above l (elems t) -> costs (insert_all id less shape l) t (2 * length l) (fun _ _ => True).
Proof.
  induction l as [|x l IL]; intros t I A; cbn [insert_all length]; [apply k_ret; auto|]. apply (inc_cons lt) in I. destruct I as (I & J).
  eapply (k_then _ _ _ _ _ 2 (2 * length l)); [apply top_costs; intros y Y; apply A; cbn; auto| |lia]. cbn beta. intros _ t' E.
  apply IL; auto. intros z y Z Y. rewrite E in Y. apply in_app_or in Y. destruct Y as [Y|[<-|[]]]; auto. apply A; cbn; auto.
Qed.

Lemma above_tl : forall x l o, above (x :: l) o -> above l o.
Proof. intros x l o A y z Y Z. apply A; cbn; auto. Qed.
Lemma above_new : forall x l o, above l o -> (forall y, In y l -> lt x y = true) -> above l (o ++ [x]).
Proof. intros x l o A B y z Y Z. apply in_app_or in Z. destruct Z as [Z|[<-|[]]]; auto. Qed.
Ltac task_ n := eapply (k_then _ _ _ _ _ 1 n); [apply k_task| |lia]; cbn beta; let t' := fresh "t" in intros ? t' (-> & ->).
Lemma incl_costs : forall l m t, costs (includes_calls less l m) t (2 * length l) (fun _ _ => True).
Proof.
  induction l as [|x l IL]; intros [|y m] t; cbn [includes_calls length]; try (eapply k_conseq; [apply k_ret with (P := fun _ _ => True); auto|lia|auto]).
  task_ (1 + 2 * length l). destruct (lt y x); [eapply k_conseq; [apply k_ret with (P := fun _ _ => True); auto|lia|auto]|].
  task_ (2 * length l). destruct (lt x y); apply IL.
Qed.
Lemma same_costs : forall (eqb : T -> T -> bool) l m t, costs (same_calls (patient eqb) l m) t (length l) (fun _ _ => True).
Proof.
  intros eqb. induction l as [|x l IL]; intros [|y m] t; cbn [same_calls length]; try (eapply k_conseq; [apply k_ret with (P := fun _ _ => True); auto|lia|auto]).
  task_ (length l). destruct (eqb x y); [apply IL|eapply k_conseq; [apply k_ret with (P := fun _ _ => True); auto|lia|auto]].
Qed.
Ltac both := let l := fresh "l" in let m := fresh "m" in let x := fresh "x" in let y := fresh "y" in let IL := fresh "IL" in let IM := fresh "IM" in
  intros l; induction l as [|x l IL]; [intros [|y m]|intros m; induction m as [|y m IM]]; intros t I J A B.
Ltac nil_ := eapply k_conseq; [apply k_ret with (P := fun _ _ => True); auto|lia|auto].

Lemma inter_costs : forall l m t, increasing lt l -> increasing lt m -> above l (elems t) -> above m (elems t) ->
  costs (intersection_calls less shape l m) t (2 * (length l + length m)) (fun _ _ => True).
Proof.
  both; cbn [intersection_calls length]; try nil_. pose proof I as I'. pose proof J as J'. apply (inc_cons lt) in I, J. destruct I as (I & IX), J as (J & JX).
  task_ (1 + 2 * length l + 2 * (length m) + 2). destruct (lt x y) eqn:XY.
  - eapply k_conseq; [apply IL; auto; eapply above_tl; eauto|cbn [length]; lia|auto].
  - task_ (2 * length l + 2 * length m + 2). destruct (lt y x) eqn:YX.
    + eapply k_conseq; [apply IM; auto; eapply above_tl; eauto|cbn [length]; lia|auto].
    + assert (x = y) as <- by (apply (lt_neither lt O); auto).
      eapply (k_then _ _ _ _ _ 2 (2 * (length l + length m))); [apply top_costs; intros z Z; apply A; cbn; auto| |lia]. cbn beta. intros _ t' E.
      apply IL; auto; rewrite E; apply above_new; auto; eapply above_tl; eauto.
Qed.
Lemma union_costs : forall l m t, increasing lt l -> increasing lt m -> above l (elems t) -> above m (elems t) ->
  costs (union_calls less shape l m) t (4 * (length l + length m)) (fun _ _ => True).
Proof.
  both; cbn [union_calls].
  - nil_.
  - eapply k_conseq; [apply tops_costs; auto|lia|auto].
  - eapply k_conseq; [apply tops_costs; auto|lia|auto].
  - cbn [length]. pose proof I as I'. pose proof J as J'. apply (inc_cons lt) in I, J. destruct I as (I & IX), J as (J & JX).
    task_ (3 + 4 * (length l + length m) + 4). destruct (lt x y) eqn:XY.
    + eapply (k_then _ _ _ _ _ 2 (4 * (length l + S (length m)))); [apply top_costs; intros z Z; apply A; cbn; auto| |lia]. cbn beta. intros _ t' E.
      apply (IL (y :: m)); auto; rewrite E; apply above_new; auto; [eapply above_tl; eauto|]. intros z [<-|Z]; auto. apply (lt_tr lt O) with y; auto.
    + task_ (2 + 4 * (length l + length m) + 4). destruct (lt y x) eqn:YX.
      * eapply (k_then _ _ _ _ _ 2 (4 * (S (length l) + length m))); [apply top_costs; intros z Z; apply B; cbn; auto| |lia]. cbn beta. intros _ t' E.
        apply IM; auto; rewrite E; apply above_new; auto; [|eapply above_tl; eauto]. intros z [<-|Z]; auto. apply (lt_tr lt O) with x; auto.
      * assert (x = y) as <- by (apply (lt_neither lt O); auto).
        eapply (k_then _ _ _ _ _ 2 (4 * (length l + length m))); [apply top_costs; intros z Z; apply A; cbn; auto| |lia]. cbn beta. intros _ t' E.
        apply IL; auto; rewrite E; apply above_new; auto; eapply above_tl; eauto.
Qed.
Lemma diff_costs : forall l m t, increasing lt l -> increasing lt m -> above l (elems t) -> True ->
  costs (difference_calls less shape l m) t (3 * (length l + length m)) (fun _ _ => True).
Proof.
  both; cbn [difference_calls].
  - nil_.
  - nil_.
  - eapply k_conseq; [apply tops_costs; auto|lia|auto].
  - cbn [length]. pose proof I as I'. pose proof J as J'. apply (inc_cons lt) in I, J. destruct I as (I & IX), J as (J & JX).
    task_ (2 + 3 * (length l + length m) + 3). destruct (lt x y) eqn:XY.
    + eapply (k_then _ _ _ _ _ 2 (3 * (length l + S (length m)))); [apply top_costs; intros z Z; apply A; cbn; auto| |lia]. cbn beta. intros _ t' E.
      apply (IL (y :: m)); auto; rewrite E; apply above_new; auto; eapply above_tl; eauto.
    + task_ (1 + 3 * (length l + length m) + 3). destruct (lt y x) eqn:YX.
      * eapply k_conseq; [apply IM; auto|cbn [length]; lia|auto].
      * eapply k_conseq; [apply IL; auto; eapply above_tl; eauto|lia|auto].
Qed.
Lemma symm_costs : forall l m t, increasing lt l -> increasing lt m -> above l (elems t) -> above m (elems t) ->
  costs (symmetric_calls less shape l m) t (4 * (length l + length m)) (fun _ _ => True).
Proof.
  both; cbn [symmetric_calls].
  - nil_.
  - eapply k_conseq; [apply tops_costs; auto|lia|auto].
  - eapply k_conseq; [apply tops_costs; auto|lia|auto].
  - cbn [length]. pose proof I as I'. pose proof J as J'. apply (inc_cons lt) in I, J. destruct I as (I & IX), J as (J & JX).
    task_ (3 + 4 * (length l + length m) + 4). destruct (lt x y) eqn:XY.
    + eapply (k_then _ _ _ _ _ 2 (4 * (length l + S (length m)))); [apply top_costs; intros z Z; apply A; cbn; auto| |lia]. cbn beta. intros _ t' E.
      apply (IL (y :: m)); auto; rewrite E; apply above_new; auto; [eapply above_tl; eauto|]. intros z [<-|Z]; auto. apply (lt_tr lt O) with y; auto.
    + task_ (2 + 4 * (length l + length m) + 4). destruct (lt y x) eqn:YX.
      * eapply (k_then _ _ _ _ _ 2 (4 * (S (length l) + length m))); [apply top_costs; intros z Z; apply B; cbn; auto| |lia]. cbn beta. intros _ t' E.
        apply IM; auto; rewrite E; apply above_new; auto; [|eapply above_tl; eauto]. intros z [<-|Z]; auto. apply (lt_tr lt O) with x; auto.
      * eapply k_conseq; [apply IL; auto; eapply above_tl; eauto|lia|auto].
Qed.

(** ** The members *)
Lemma spend : forall A (m : TM nat X T A) t n P, costs m t n P -> spends m t n.
Proof. intros A m t n P H q. specialize (H q). destruct (m (t, q)) as [[a|x|u] [t' q']]; cbn; lia. Qed.
Theorem contains_spends : forall x t, spends (X := X) (set_contains_calls less x) t (depth t + 1).
Proof.
  intros x t. unfold set_contains_calls. eapply spend. eapply (k_then _ _ _ _ _ (depth t + 1) 0); [apply find_costs| |lia].
  intros j t' _. apply k_ret with (P := fun _ _ => True). auto.
Qed.
Theorem add_spends : forall x t, spends (X := X) (set_add_calls less shape x) t (depth t + 2).
Proof.
  intros x t. unfold set_add_calls. eapply spend. eapply (k_then _ _ _ _ _ 0 (depth t + 2)); [apply k_get| |lia]. cbn beta. intros a t' (-> & ->).
  eapply (k_then _ _ _ _ _ 0 (depth t + 2)); [apply k_quiet| |lia]. cbn beta. intros [] t' (_ & ->). apply insert_costs.
Qed.
Theorem remove_spends : forall x t, spends (X := X) (set_remove_calls less shape x) t (2 * depth t).
Proof.
  intros x t. unfold set_remove_calls. eapply spend. eapply (k_then _ _ _ _ _ (2 * depth t) 0); [apply erase_costs| |lia].
  intros j t' _. apply k_ret with (P := fun _ _ => True). auto.
Qed.
Theorem extend_spends : forall (h : nat -> nat) xs t, (forall i j, i <= j -> h i <= h j) -> (forall t l, depth (shape t l) <= h (length l)) ->
  depth t <= h (length (elems t)) -> spends (X := X) (set_extend_calls less shape xs) t (length xs * (h (length (elems t) + length xs) + 3)).
Proof. intros h xs t M D B. eapply spend. unfold set_extend_calls. apply all_costs; auto. Qed.
Theorem extend_top_spends : forall xs t, increasing lt (elems t ++ xs) -> spends (X := X) (set_extend_calls less shape xs) t (2 * length xs).
Proof.
  intros xs t I. apply (inc_app lt) in I. destruct I as (_ & I & A). eapply spend. unfold set_extend_calls. apply tops_costs; auto. intros x y P Q. apply A; auto.
Qed.
Theorem le_spends : forall b t, spends (X := X) (set_le_calls less b) t (2 * length b) /\ spends (X := X) (set_lt_calls less b) t (2 * length b).
Proof.
  intros b t. assert (H: costs (set_le_calls less b) t (2 * length b) (fun _ _ => True)).
  { unfold set_le_calls. eapply (k_then _ _ _ _ _ 0 (2 * length b)); [apply k_get| |lia]. cbn beta. intros a t' (-> & ->). apply incl_costs. }
  split; eapply spend; [exact H|]. unfold set_lt_calls. eapply (k_then _ _ _ _ _ 0 (2 * length b)); [apply k_get| |lia]. cbn beta. intros a t' (-> & ->).
  destruct (negb _); [exact H|]. eapply k_conseq; [apply k_ret with (P := fun _ _ => True); auto|lia|auto].
Qed.
Theorem ge_spends : forall b t, spends (X := X) (set_ge_calls less b) t (2 * length (elems t)) /\ spends (X := X) (set_gt_calls less b) t (2 * length (elems t)).
Proof.
  intros b t. assert (H: costs (set_ge_calls less b) t (2 * length (elems t)) (fun _ _ => True)).
  { unfold set_ge_calls. eapply (k_then _ _ _ _ _ 0 (2 * length (elems t))); [apply k_get| |lia]. cbn beta. intros a t' (-> & ->). apply incl_costs. }
  split; eapply spend; [exact H|]. unfold set_gt_calls. eapply (k_then _ _ _ _ _ 0 (2 * length (elems t))); [apply k_get| |lia]. cbn beta. intros a t' (-> & ->).
  destruct (negb _); [exact H|]. eapply k_conseq; [apply k_ret with (P := fun _ _ => True); auto|lia|auto].
Qed.
Theorem eq_spends : forall (eqb : T -> T -> bool) b t, spends (X := X) (set_eq_calls (patient eqb) b) t (length (elems t)).
Proof.
  intros eqb b t. unfold set_eq_calls. eapply spend. eapply (k_then _ _ _ _ _ 0 (length (elems t))); [apply k_get| |lia]. cbn beta. intros a t' (-> & ->).
  destruct (Nat.eqb _ _); [apply same_costs|]. eapply k_conseq; [apply k_ret with (P := fun _ _ => True); auto|lia|auto].
Qed.
Lemma none_above : forall l : list T, above l [].
Proof. intros l x y _ []. Qed.
Theorem algebra_spends : forall b t, increasing lt (elems t) -> increasing lt b ->
  spends (X := X) (set_and_calls less shape b) t (2 * (length (elems t) + length b)) /\
  spends (X := X) (set_or_calls less shape b) t (4 * (length (elems t) + length b)) /\
  spends (X := X) (set_sub_calls less shape b) t (3 * (length (elems t) + length b)) /\
  spends (X := X) (set_xor_calls less shape b) t (4 * (length (elems t) + length b)).
Proof.
  intros b t I J.
  assert (W: forall m n, costs m Leaf n (fun _ _ => True) -> costs (fresh m) t n (fun _ _ => True)).
  { intros m n H. eapply k_conseq; [apply k_fresh, H|lia|auto]. }
  repeat match goal with |- _ /\ _ => split end; eapply spend; unfold set_and_calls, set_or_calls, set_sub_calls, set_xor_calls.
  - eapply (k_then _ _ _ _ _ 0 _ (2 * (length (elems t) + length b))); [apply k_get| |apply Nat.le_refl]. cbn beta. intros a t' (-> & ->). apply W, inter_costs; auto; apply none_above.
  - eapply (k_then _ _ _ _ _ 0 _ (4 * (length (elems t) + length b))); [apply k_get| |apply Nat.le_refl]. cbn beta. intros a t' (-> & ->). apply W, union_costs; auto; apply none_above.
  - eapply (k_then _ _ _ _ _ 0 _ (3 * (length (elems t) + length b))); [apply k_get| |apply Nat.le_refl]. cbn beta. intros a t' (-> & ->). apply W, diff_costs; auto; apply none_above.
  - eapply (k_then _ _ _ _ _ 0 _ (4 * (length (elems t) + length b))); [apply k_get| |apply Nat.le_refl]. cbn beta. intros a t' (-> & ->). apply W, symm_costs; auto; apply none_above.
Qed.
Theorem lookup_log : forall h x t, red_black false h t ->
  spends (X := X) (set_contains_calls less x) t (2 * Nat.log2 (length (elems t) + 1) + 1) /\
  spends (X := X) (set_add_calls less shape x) t (2 * Nat.log2 (length (elems t) + 1) + 2) /\
  spends (X := X) (set_remove_calls less shape x) t (4 * Nat.log2 (length (elems t) + 1)).
Proof.
  intros h x t R. apply rb_log in R. split; [|split]; intros q.
  - pose proof (contains_spends x t q). lia.
  - pose proof (add_spends x t q). lia.
  - pose proof (remove_spends x t q). lia.
Qed.
End Set_.

Section Dict_.
Context {X K V : Type} (lt : K -> K -> bool) (shape : tree (K * V) -> list (K * V) -> tree (K * V)).
Notation costs := (costs (X := X) (E := (K * V))).
Notation less := (patient lt).
Lemma dspend : forall A (m : TM nat X (K * V) A) t n P, costs m t n P -> spends m t n.
Proof. intros A m t n P H q. specialize (H q). destruct (m (t, q)) as [[a|x|u] [t' q']]; cbn; lia. Qed.
Lemma at_costs : forall k t, costs (dict_at_calls less k) t (depth t + 1) (fun _ t' => t' = t).
Proof.
  intros k t. unfold dict_at_calls. eapply (k_then _ _ _ _ _ (depth t + 1) 0); [apply find_costs| |lia]. cbn beta. intros [j|] t' ->.
  - eapply (k_then _ _ _ _ _ 0 0); [apply k_elem| |lia]. cbn beta. intros e t' (_ & ->). apply k_ret. auto.
  - intros q. cbn. lia.
Qed.
Lemma has_costs : forall k t, costs (dict_contains_calls less k) t (depth t + 1) (fun _ t' => t' = t).
Proof.
  intros k t. unfold dict_contains_calls. eapply (k_then _ _ _ _ _ (depth t + 1) 0); [apply find_costs| |lia]. cbn beta. intros j t' ->. apply k_ret. auto.
Qed.
Theorem dict_spends : forall k x t,
  spends (X := X) (dict_contains_calls less k) t (depth t + 1) /\
  spends (X := X) (dict_at_calls less k) t (depth t + 1) /\
  spends (X := X) (dict_set_calls less shape k x) t (depth t + 1) /\
  spends (X := X) (dict_get_calls less k x) t (2 * depth t + 2) /\
  spends (X := X) (dict_add_calls less shape k x) t (depth t + 2) /\
  spends (X := X) (dict_remove_calls less shape k) t (2 * depth t).
Proof.
  intros k x t. repeat match goal with |- _ /\ _ => split end.
  - eapply dspend, has_costs.
  - eapply dspend, at_costs.
  - apply (dspend _ _ t (depth t + 1) (fun _ _ => True)). unfold dict_set_calls. eapply (k_then _ _ _ _ _ (depth t + 1) 0); [apply find_costs| |lia]. cbn beta. intros [j|] t' ->; [|intros q; cbn; lia].
    eapply (k_then _ _ _ _ _ 0 0); [apply k_elem| |lia]. cbn beta. intros e t' (_ & ->). eapply (k_then _ _ _ _ _ 0 0); [apply k_get| |lia]. intros a t' _.
    eapply k_conseq; [apply change_costs|lia|auto].
  - eapply dspend. unfold dict_get_calls. eapply (k_then _ _ _ _ _ (depth t + 1) (depth t + 1)); [apply has_costs| |lia]. cbn beta. intros [|] t' ->; [apply at_costs|].
    eapply k_conseq; [apply k_ret with (P := fun _ t' => t' = t); reflexivity|lia|auto].
  - eapply dspend. unfold dict_add_calls. eapply (k_then _ _ _ _ _ 0 (depth t + 2)); [apply k_get| |lia]. cbn beta. intros a t' (-> & ->).
    eapply (k_then _ _ _ _ _ 0 (depth t + 2)); [apply k_quiet| |lia]. cbn beta. intros [] t' (_ & ->). apply insert_costs.
  - eapply dspend. unfold dict_remove_calls. eapply (k_then _ _ _ _ _ (2 * depth t) 0); [apply erase_costs| |lia].
    intros j t' _. apply k_ret with (P := fun _ _ => True). auto.
Qed.
End Dict_.
