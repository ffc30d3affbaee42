(** Proofs about references into Dicts. *)
From Coq Require Import ZArith List Bool Ascii Lia Sorted.
From Verif Require Import Outcome ListModel ListSpec ListFacts ListMore SetModel SetSpec SetFacts SetProg SetMore
  DictModel DictSpec DictFacts DictProg DictRefModel DictRefSpec.
Import ListNotations.
Open Scope Z_scope.

Section Ref.
Context {K V : Type} (ltk eqk : K -> K -> bool) (ltv eqv : V -> V -> bool) (showk : K -> list ascii) (showv : V -> list ascii).
Hypothesis OK : strict_total ltk.
Hypothesis OV : strict_total ltv.
Hypothesis DK : decides eqk.
Hypothesis DV : decides eqv.
Notation state := (hstate K V).
Implicit Types h : state.
Notation nodes := (list (K * nat)).

(** ** The map functions do not look at the values *)

Lemma lower_look : forall (m : nat -> V) k (l : nodes),
  map_lower ltk k (map (look m) l) = (map (look m) (fst (map_lower ltk k l)), map (look m) (snd (map_lower ltk k l))).
Proof.
  induction l as [|p l]; cbn [map map_lower]; auto. cbn [look fst]. destruct (ltk (fst p) k); auto.
  rewrite IHl. destruct (map_lower ltk k l). reflexivity.
Qed.

Lemma find_look : forall (m : nat -> V) k (l : nodes), map_find ltk k (map (look m) l) = option_map m (map_find ltk k l).
Proof.
  intros m k l. unfold map_find. rewrite lower_look. cbn [snd]. destruct (snd (map_lower ltk k l)) as [|p b]; cbn [map]; auto.
  cbn [look fst snd]. destruct (ltk k (fst p)); auto.
Qed.

Lemma erase_look : forall (m : nat -> V) k (l : nodes),
  map_erase ltk k (map (look m) l) = (fst (map_erase ltk k l), map (look m) (snd (map_erase ltk k l))).
Proof.
  intros m k l. unfold map_erase. rewrite lower_look. destruct (map_lower ltk k l) as [a b]. cbn [fst snd].
  destruct b as [|p b]; cbn [map]; auto. cbn [look fst]. destruct (ltk k (fst p)); cbn [fst snd]; auto.
  rewrite map_app. auto.
Qed.

Lemma look_other : forall (m : nat -> V) a x (l : nodes), (forall k, ~ In (k, a) l) -> map (look (nset m a x)) l = map (look m) l.
Proof.
  intros m a x l N. apply map_ext_in. intros [k b] I. unfold look, nset. cbn [fst snd]. destruct (Nat.eqb_spec b a); auto.
  subst. destruct (N k I).
Qed.

Lemma insert_look : forall (m : nat -> V) k a x (l : nodes), (forall j, ~ In (j, a) l) ->
  map_insert ltk k x (map (look m) l) =
  (fst (map_insert ltk k a l), map (look (nset m a x)) (snd (map_insert ltk k a l))).
Proof.
  intros m k a x l N. pose proof (look_other m a x l N) as Q. unfold map_insert. rewrite lower_look.
  destruct (map_lower ltk k l) as [p q] eqn:E. cbn [fst snd].
  destruct (map_lower_ok ltk k l p q E) as [L _]. subst l. rewrite !map_app in Q.
  assert (Q1 : map (look (nset m a x)) p = map (look m) p).
  { apply look_other. intros j I. apply (N j). apply in_or_app. auto. }
  assert (Q2 : map (look (nset m a x)) q = map (look m) q).
  { apply look_other. intros j I. apply (N j). apply in_or_app. auto. }
  assert (A : look (nset m a x) (k, a) = (k, x)) by (unfold look, nset; cbn; rewrite Nat.eqb_refl; auto).
  destruct q as [|[j b] q]; cbn [map].
  - cbn [fst snd]. rewrite map_app. cbn [map]. rewrite A, Q1. auto.
  - cbn [look fst snd]. destruct (ltk k j); cbn [fst snd].
    + rewrite map_app. cbn [map] in Q2 |- *. rewrite A, Q1, Q2. reflexivity.
    + f_equal. rewrite look_other by exact N. rewrite ?map_app. reflexivity.
Qed.

Lemma assign_look : forall (m : nat -> V) k x (l : nodes), NoDup (map snd l) ->
  map_assign ltk k x (map (look m) l) =
  match map_find ltk k l with Some a => Some (map (look (nset m a x)) l) | None => None end.
Proof.
  intros m k x l D. unfold map_assign, map_find. rewrite lower_look.
  destruct (map_lower ltk k l) as [p q] eqn:E. cbn [fst snd].
  destruct (map_lower_ok ltk k l p q E) as [L _]. subst l.
  destruct q as [|[j b] q]; cbn [map]; auto. cbn [look fst snd]. destruct (ltk k j); auto.
  f_equal. rewrite map_app in D |- *. cbn [map snd] in D |- *. apply NoDup_remove_2 in D. f_equal.
  - symmetry. apply look_other. intros i I. apply D. apply in_or_app. left. apply in_map_iff. exists (i, b). auto.
  - f_equal.
    + unfold look, nset. cbn. rewrite Nat.eqb_refl. auto.
    + symmetry. apply look_other. intros i I. apply D. apply in_or_app. right. apply in_map_iff. exists (i, b). auto.
Qed.

Lemma look_keys : forall (m : nat -> V) (l : nodes), map fst (map (look m) l) = map fst l.
Proof. intros. rewrite map_map. apply map_ext. intros [k a]. auto. Qed.

Lemma look_len : forall (m : nat -> V) (l : nodes), len (map (look m) l) = len l.
Proof. intros. unfold len. rewrite map_length. auto. Qed.

Lemma look_size : forall (m : nat -> V) (l : nodes), size (map (look m) l) = size l.
Proof. intros. unfold size. rewrite look_len. auto. Qed.

(** ** Invariant *)

Record inv (h : state) : Prop := {
  in_live : forall v k a, In (k, a) (hd h v) -> hl h a = true;
  in_one : forall v w k j a, In (k, a) (hd h v) -> In (j, a) (hd h w) -> v = w /\ k = j;
  in_old : forall a, hl h a = true -> (a < hn h)%nat;
  in_sort : forall v, increasing ltk (map fst (hd h v))
}.

Definition ptr_ok h (p : ptr K) (o : option nat) : Prop :=
  match p with
  | Null => o = None
  | To v k => exists a, o = Some a /\ In (k, a) (hd h v)
  | Gone => exists a, o = Some a /\ hl h a = false /\ (a < hn h)%nat
  end.
Definition ptrs_ok h (P : nat -> ptr K) : Prop := forall r, ptr_ok h (P r) (hr h r).

Lemma stands_inv : forall h e P, hstands ltk h e P -> inv h.
Proof.
  intros h e P S. destruct S. constructor; auto. intros v. destruct (st_view v) as [[I _] _].
  unfold view in I. rewrite look_keys in I. auto.
Qed.

Lemma nodup_nodes : forall h v, inv h -> NoDup (map snd (hd h v)).
Proof.
  intros h v I. assert (G : forall l : nodes, increasing ltk (map fst l) -> (forall k j a, In (k, a) l -> In (j, a) l -> k = j) -> NoDup (map snd l)).
  { induction l as [|[k a] l]; cbn [map snd fst]; intros S U; constructor.
    - intros X. apply in_map_iff in X. destruct X as ([j b] & E & X). cbn in E. subst b.
      assert (k = j) by (apply (U k j a); [left; auto|right; auto]). subst j.
      apply (head_fresh ltk OK _ _ S). apply in_map_iff. exists (k, a). auto.
    - apply IHl; [eapply inc_tail; eauto|]. intros i j b A B. apply (U i j b); right; auto. }
  apply G; [apply I|]. intros k j a A B. apply (in_one h I v v k j a A B).
Qed.

Lemma fresh_node : forall h v k, inv h -> ~ In (k, hn h) (hd h v).
Proof. intros h v k I X. apply (in_live h I) in X. apply (in_old h I) in X. lia. Qed.

(** A state with more nodes. *)
Record ext (h h' : state) : Prop := {
  x_ref : forall r, hr h' r = hr h r;
  x_next : (hn h <= hn h')%nat;
  x_live : forall a, (a < hn h)%nat -> hl h' a = hl h a;
  x_node : forall v p, In p (hd h v) -> In p (hd h' v)
}.

Lemma ext_refl : forall h, ext h h.
Proof. intros h. constructor; auto. Qed.
Lemma ext_trans : forall h1 h2 h3, ext h1 h2 -> ext h2 h3 -> ext h1 h3.
Proof.
  intros h1 h2 h3 [A B C D] [A' B' C' D']. constructor; intros.
  - rewrite A'. auto.
  - lia.
  - rewrite C' by lia. auto.
  - auto.
Qed.

Lemma ext_ptr : forall h h' p o, ext h h' -> ptr_ok h p o -> ptr_ok h' p o.
Proof.
  intros h h' [|v k|] o X H; cbn [ptr_ok] in *; auto.
  - destruct H as (a & A & B). exists a. split; auto. apply X; auto.
  - destruct H as (a & A & B & C). exists a. split; auto. rewrite (x_live _ _ X) by auto. split; auto.
    pose proof (x_next _ _ X). lia.
Qed.

Lemma insert_in : forall k a (l d : nodes), map_insert ltk k a l = (true, d) -> forall p, In p d <-> p = (k, a) \/ In p l.
Proof.
  intros k a l d H p. unfold map_insert in H. destruct (map_lower ltk k l) as [x y] eqn:E.
  destruct (map_lower_ok ltk k l x y E) as [L _]. subst l.
  destruct y as [|[j b] y].
  - inversion H; subst. rewrite !in_app_iff. cbn [In]. intuition.
  - cbn [fst] in H. destruct (ltk k j); inversion H; subst. rewrite !in_app_iff. cbn [In]. intuition.
Qed.

Lemma insert_step : forall h v k x, inv h ->
  let h' := snd (h_insert ltk v k x h) in
  map_insert ltk k x (view h v) = (fst (h_insert ltk v k x h), view h' v) /\
  (forall w, w <> v -> view h' w = view h w) /\ inv h' /\ ext h h'.
Proof.
  intros h v k x I h'. subst h'. unfold h_insert.
  pose proof (insert_look (hm h) k (hn h) x (hd h v) (fun j => fresh_node h v j I)) as L.
  pose proof (map_insert_keys ltk k (hn h) (hd h v)) as KS.
  destruct (map_insert ltk k (hn h) (hd h v)) as [b d] eqn:E. cbn [fst snd] in L, KS. destruct b; cbn [fst snd].
  - pose proof (insert_in _ _ _ _ E) as IN. split; [|split; [|split]].
    + unfold view. cbn [hd hm]. unfold nset at 2. rewrite Nat.eqb_refl. auto.
    + intros w N. unfold view. cbn [hd hm]. unfold nset at 2. destruct (Nat.eqb_spec w v); [contradiction|].
      apply look_other. intros j. apply fresh_node; auto.
    + constructor; cbn [hd hl hn].
      * intros u j a A. unfold nset in *. destruct (Nat.eqb_spec a (hn h)); auto.
        destruct (Nat.eqb_spec u v); [|eapply in_live; eauto]. subst u. apply IN in A. destruct A as [A|A]; [congruence|eapply in_live; eauto].
      * intros u w i j a A B. unfold nset in *.
        assert (F : forall u i, In (i, hn h) (hd h u) -> False) by (intros; eapply fresh_node; eauto).
        destruct (Nat.eqb_spec u v), (Nat.eqb_spec w v); subst.
        -- apply IN in A. apply IN in B. destruct A as [A|A], B as [B|B].
           ++ split; congruence.
           ++ inversion A; subst. destruct (F v j); auto.
           ++ inversion B; subst. destruct (F v i); auto.
           ++ eapply in_one; eauto.
        -- apply IN in A. destruct A as [A|A]; [inversion A; subst; destruct (F w j); auto|eapply in_one; eauto].
        -- apply IN in B. destruct B as [B|B]; [inversion B; subst; destruct (F u i); auto|eapply in_one; eauto].
        -- eapply in_one; eauto.
      * intros a A. unfold nset in A. destruct (Nat.eqb_spec a (hn h)); [lia|]. apply (in_old h I) in A. lia.
      * intros u. unfold nset. destruct (Nat.eqb_spec u v); [|apply I]. rewrite KS. apply (insert_ok ltk OK). apply I.
    + constructor; cbn [hd hl hn hr]; auto.
      * intros a A. unfold nset. destruct (Nat.eqb_spec a (hn h)); [lia|auto].
      * intros u p A. unfold nset. destruct (Nat.eqb_spec u v); subst; auto. apply IN. auto.
  - split; [|split; [auto|split; [auto|apply ext_refl]]].
    unfold view. rewrite L. f_equal. unfold map_insert in E. destruct (map_lower ltk k (hd h v)) as [p q].
    destruct q as [|y q]; [inversion E|]. destruct (ltk k (fst y)); inversion E. subst.
    apply look_other. intros j. apply fresh_node; auto.
Qed.

Lemma range_step : forall xs h v, inv h ->
  let h' := h_insert_range ltk v xs h in
  view h' v = map_insert_range ltk xs (view h v) /\ (forall w, w <> v -> view h' w = view h w) /\ inv h' /\ ext h h'.
Proof.
  induction xs as [|[k x] xs]; intros h v I h'; subst h'; unfold h_insert_range, map_insert_range; cbn [fold_left fst snd].
  - split; auto. split; auto. split; auto. apply ext_refl.
  - destruct (insert_step h v k x I) as (A & B & C & D). destruct (IHxs (snd (h_insert ltk v k x h)) v C) as (A' & B' & C' & D').
    rewrite A. cbn [snd]. split; [exact A'|]. split; [|split; auto; eapply ext_trans; eauto].
    intros w N. rewrite <- B by auto. apply B'. auto.
Qed.

(** ** Ending nodes *)

Lemma ends_spec : forall (l : nodes) live a, ends l live a = true <-> live a = true /\ forall k, ~ In (k, a) l.
Proof.
  intros l live a. unfold ends. rewrite andb_true_iff, negb_true_iff. split; intros [A B]; split; auto.
  - intros k I. assert (X : existsb (fun p => Nat.eqb (snd p) a) l = true).
    { apply existsb_exists. exists (k, a). split; auto. cbn. apply Nat.eqb_refl. }
    congruence.
  - destruct (existsb (fun p => Nat.eqb (snd p) a) l) eqn:E; auto. apply existsb_exists in E.
    destruct E as ([k b] & I & E). cbn in E. apply Nat.eqb_eq in E. subst. destruct (B k I).
Qed.

Lemma ends_false : forall (l : nodes) live a k, In (k, a) l -> ends l live a = false.
Proof.
  intros l live a k I. destruct (ends l live a) eqn:E; auto. apply ends_spec in E. destruct (proj2 E k I).
Qed.

(** The entries of [v] are split into those kept, [d], and those ended, [g]. *)
Lemma cut_step : forall h v d g, inv h ->
  (forall p, In p (hd h v) <-> In p d \/ In p g) -> (forall p, In p d -> ~ In p g) -> increasing ltk (map fst d) ->
  let h' := h_cut v d g h in
  inv h' /\ view h' v = map (look (hm h)) d /\ (forall w, w <> v -> view h' w = view h w) /\
  (forall P P' (dead : nat -> K -> Prop), ptrs_ok h P -> lost dead P P' ->
     (forall u k a, In (k, a) (hd h u) -> (dead u k <-> u = v /\ In (k, a) g)) -> ptrs_ok h' P').
Proof.
  intros h v d g I S D N h'. subst h'. unfold h_cut. split; [|split; [|split]].
  - constructor; cbn [hd hl hn]; unfold nset.
    + intros u k a A. apply ends_spec. destruct (Nat.eqb_spec u v).
      * subst. split; [eapply in_live; eauto; apply S; eauto|]. intros j B.
        destruct (in_one h I v v k j a) as [_ E]; [apply S; auto|apply S; auto|]. subst. exact (D _ A B).
      * split; [eapply in_live; eauto|]. intros j B. destruct (in_one h I u v k j a); auto. apply S; auto.
    + intros u w k j a A B.
      assert (A' : In (k, a) (hd h u)) by (destruct (Nat.eqb_spec u v); [subst; apply S|]; auto).
      assert (B' : In (j, a) (hd h w)) by (destruct (Nat.eqb_spec w v); [subst; apply S|]; auto).
      eapply in_one; eauto.
    + intros a A. apply ends_spec in A. apply (in_old h I). apply A.
    + intros u. destruct (Nat.eqb_spec u v); auto. apply I.
  - unfold view. cbn [hd hm]. unfold nset. rewrite Nat.eqb_refl. auto.
  - intros w W. unfold view. cbn [hd hm]. unfold nset. destruct (Nat.eqb_spec w v); [contradiction|auto].
  - intros P P' dead H L E r. specialize (H r). specialize (L r). cbn [hr].
    destruct (P r) as [|u k|]; cbn [ptr_ok] in H.
    + rewrite L. auto.
    + destruct H as (a & Q & A). destruct L as [[X ->]|[X ->]]; cbn [ptr_ok hd hl hn].
      * apply (E u k a A) in X. destruct X as [-> X]. exists a. split; auto. split; [eapply ends_false; eauto|].
        apply (in_old h I). eapply in_live; eauto.
      * exists a. split; auto. unfold nset. destruct (Nat.eqb_spec u v); auto. subst.
        apply S in A. destruct A as [A|A]; auto. destruct X. apply (E v k a); auto. apply S; auto.
    + destruct H as (a & Q & A & B). rewrite L. cbn [ptr_ok hl hn]. exists a. split; auto. split; auto.
      unfold ends. rewrite A. auto.
Qed.

Lemma lost_none : forall P P' : nat -> ptr K, lost (fun _ _ => False) P P' -> forall r, P' r = P r.
Proof. intros P P' L r. specialize (L r). destruct (P r); auto. destruct L as [[[] _]|[_ E]]; auto. Qed.

Lemma ext_ptrs : forall h h' P P', ext h h' -> ptrs_ok h P -> lost (fun _ _ => False) P P' -> ptrs_ok h' P'.
Proof.
  intros h h' P P' X H L r. rewrite (lost_none _ _ L), (x_ref _ _ X). eapply ext_ptr; eauto.
Qed.

Lemma ext_lost : forall h h' P, ext h h' -> ptrs_ok h P -> ptrs_ok h' P.
Proof. intros h h' P X H r. rewrite (x_ref _ _ X). eapply ext_ptr; eauto. Qed.

(** ** Statements *)

Notation step := (mstep ltk eqk ltv eqv showk showv).
Notation spec := (fstep ltk ltv showk showv).
Notation do := (h_do ltk eqk ltv eqv showk showv).

Lemma inv_write : forall h a x, inv h -> inv (h_write a x h).
Proof. intros h a x [A B C D]. constructor; auto. Qed.

Lemma node_in : forall h v k a, inv h -> (map_find ltk k (hd h v) = Some a <-> In (k, a) (hd h v)).
Proof. intros h v k a I. apply (find_ok ltk OK). apply I. Qed.

Lemma node_none : forall h v k, inv h -> (map_find ltk k (hd h v) = None <-> forall a, ~ In (k, a) (hd h v)).
Proof.
  intros h v k I. split.
  - intros N a A. apply (node_in h v k a I) in A. congruence.
  - intros N. destruct (map_find ltk k (hd h v)) eqn:E; auto. apply (node_in h v k n I) in E. destruct (N _ E).
Qed.

Lemma write_step : forall h v k a x, inv h -> In (k, a) (hd h v) ->
  view (h_write a x h) v = map (look (nset (hm h) a x)) (hd h v) /\
  (forall w, w <> v -> view (h_write a x h) w = view h w) /\ (forall P, ptrs_ok h P -> ptrs_ok (h_write a x h) P).
Proof.
  intros h v k a x I A. unfold view, h_write. cbn [hd hm]. split; auto. split.
  - intros w W. apply look_other. intros j B. destruct (in_one h I v w k j a A B). auto.
  - intros P H r. exact (H r).
Qed.

Definition good h h' (s : mstore K V) (P' : nat -> ptr K) : Prop := (forall v, view h' v = s v) /\ inv h' /\ ptrs_ok h' P'.

Lemma good_cut : forall h v P', inv h ->
  (forall P, ptrs_ok h P -> lost (fun u _ => u = v) P P' -> ptrs_ok (h_cut v [] (hd h v) h) P') /\ inv (h_cut v [] (hd h v) h) /\
  view (h_cut v [] (hd h v) h) v = [] /\ forall w, w <> v -> view (h_cut v [] (hd h v) h) w = view h w.
Proof.
  intros h v P' I. destruct (cut_step h v [] (hd h v) I) as (A & B & C & D); cbn [In]; try tauto. { constructor. }
  split; auto. intros P H L. apply (D P P' (fun u _ => u = v)); auto. intros u k a X. split; [intros ->; auto|tauto].
Qed.

Lemma do_match : forall c h e s' ev P P', inv h -> mstands ltk (view h) e -> ptrs_ok h P -> after ltk c e P P' ->
  step c (view h) = Ok (s', ev) -> exists h', do c h = Ok (h', ev) /\ good h h' s' P'.
Proof.
  intros c h e s' ev P P' I S H L E.
  assert (SL : forall v, len (hd h v) <= INT_MAX).
  { intros v. destruct (S v) as [_ X]. unfold view in X. rewrite map_length in X. unfold len. lia. }
  assert (KE : lost (fun _ _ => False) P P' -> ptrs_ok h P') by (intros X; eapply ext_ptrs; eauto using ext_refl).
  assert (G : lost (fun _ _ => False) P P' -> good h h (view h) P') by (intros X; split; auto).
  assert (R : step c (view h) = Ok (view h, ev) -> lost (fun _ _ => False) P P' ->
    match c with MGet _ _ | MGetOr _ _ _ | MContains _ _ | MMin _ | MMax _ | MKeys _ | MValues _ | MItems _ | MSize _ | MIsEmpty _ | MEqual _ _
               | MIterate _ | MPrint _ => True | _ => False end ->
    exists h', do c h = Ok (h', ev) /\ good h h' (view h) P').
  { intros X Y Z. exists h. split; auto. destruct c; try contradiction Z; cbn [h_do]; rewrite X; auto. }
  assert (EM : forall A (o : outcome A) out, memit (view h) o out = Ok (s', ev) -> memit (view h) o out = Ok (view h, ev) /\ s' = view h).
  { intros A o out X. unfold memit in *. destruct o; inversion X; subst; auto. }
  destruct c; cbn [after] in L; try (cbn [mstep] in E; apply EM in E; destruct E as [E ->]; apply R; auto; fail).
  - (* Init *) cbn [mstep] in E. inversion E; subst. cbn [h_do]. eexists. split; [reflexivity|].
    destruct (good_cut h v P' I) as (C1 & C2 & C3 & C4). destruct (range_step xs _ v C2) as (A & B & C & D). rewrite C3 in A.
    split; [|split; auto].
    + intros w. unfold mset. destruct (Nat.eqb_spec w v); [subst; exact A|]. rewrite B, C4; auto.
    + eapply ext_lost; eauto.
  - (* Copy *) cbn [mstep] in E. inversion E; subst. cbn [h_do]. destruct (Nat.eqb_spec v w).
    + subst. exists h. split; auto. split; [|split; auto].
      * intros u. unfold mset. destruct (Nat.eqb_spec u w); subst; auto.
      * apply KE. intros r. specialize (L r). destruct (P r); auto. tauto.
    + eexists. split; [reflexivity|].
      destruct (good_cut h v P' I) as (C1 & C2 & C3 & C4). destruct (range_step (view h w) _ v C2) as (A & B & C & D). rewrite C3 in A.
      split; [|split; auto].
      * intros u. unfold mset. destruct (Nat.eqb_spec u v); [subst|rewrite B, C4; auto]. rewrite A.
        assert (X : exists m, extended no_entry (view h w) m /\ msame m (e w)).
        { destruct (S w) as [X _]. exists (joined no_entry (e w)). split; [eapply joined_extended; eauto|]. intros k. reflexivity. }
        destruct X as (m & X & Y). destruct (range_listing ltk OK (view h w) [] _ m (nil_listing ltk) X) as [Z _].
        destruct (S w) as [W _]. eapply (listing_unique ltk OK); eauto.
      * eapply ext_lost; eauto. apply (C1 P); auto. intros r. specialize (L r). destruct (P r); auto. tauto.
  - (* Move *) cbn [mstep] in E. destruct (Nat.eqb_spec v w); [discriminate|]. inversion E; subst. cbn [h_do].
    destruct (Nat.eqb_spec v w); [contradiction|]. eexists. split; [reflexivity|]. unfold h_cut. cbn [hd hm hl hn hr]. split; [|split].
    + intros u. unfold view, mset, nset. cbn [hd hm]. destruct (Nat.eqb_spec u w); auto. destruct (Nat.eqb_spec u v); auto.
    + constructor; cbn [hd hl hn]; unfold nset.
      * intros u k a A. destruct (Nat.eqb_spec u w); [destruct A|]. apply ends_spec. destruct (Nat.eqb_spec u v).
        -- subst. split; [eapply in_live; eauto|]. intros j B. destruct (in_one h I w v k j a); auto.
        -- split; [eapply in_live; eauto|]. intros j B. destruct (in_one h I u v k j a); auto.
      * intros u1 u2 k j a A B. destruct (Nat.eqb_spec u1 w); [destruct A|]. destruct (Nat.eqb_spec u2 w); [destruct B|].
        destruct (Nat.eqb_spec u1 v), (Nat.eqb_spec u2 v); subst.
        -- split; auto. eapply in_one; eauto.
        -- destruct (in_one h I w u2 k j a); auto. subst. contradiction.
        -- destruct (in_one h I u1 w k j a); auto. subst. contradiction.
        -- eapply in_one; eauto.
      * intros a A. apply ends_spec in A. apply (in_old h I). tauto.
      * intros u. destruct (Nat.eqb_spec u w); [constructor|]. destruct (Nat.eqb_spec u v); apply I.
    + intros r. specialize (L r). specialize (H r). cbn [hr]. destruct (P r) as [|u k|]; cbn [ptr_ok] in H.
      * rewrite L. auto.
      * destruct H as (a & Q & A). destruct L as [[-> ->]|[(-> & N & ->)|(N1 & N2 & ->)]]; cbn [ptr_ok hd hl hn]; exists a; split; auto.
        -- split; [eapply ends_false; eauto|]. apply (in_old h I). eapply in_live; eauto.
        -- unfold nset. destruct (Nat.eqb_spec v w); [contradiction|]. rewrite Nat.eqb_refl. auto.
        -- unfold nset. destruct (Nat.eqb_spec u w); [contradiction|]. destruct (Nat.eqb_spec u v); [contradiction|]. auto.
      * destruct H as (a & Q & A & B). rewrite L. cbn [ptr_ok hl hn]. exists a. split; auto. split; auto. unfold ends. rewrite A. auto.
  - (* Set *) cbn [mstep] in E. unfold mcall, dict_set in E. rewrite update_eq in E. unfold view at 1 2 in E.
    rewrite assign_look in E by (apply nodup_nodes; auto). cbn [h_do]. destruct (map_find ltk k (hd h v)) as [a|] eqn:F.
    + inversion E; subst. eexists. split; [reflexivity|]. apply (node_in h v k a I) in F.
      destruct (write_step h v k a x I F) as (A & B & C). split; [|split; [apply inv_write; auto|]].
      * intros w. unfold mset. destruct (Nat.eqb_spec w v); [subst; auto|]. apply B; auto.
      * apply C. apply KE; auto.
    + inversion E; subst. exists h. split; auto. split; [|split; auto]. intros w. unfold mset. destruct (Nat.eqb_spec w v); subst; auto.
  - (* Add *) cbn [mstep] in E. unfold mcall, dict_add in E. unfold view at 1 in E. rewrite look_size in E. cbn [h_do].
    destruct (check_full (size (hd h v)) INT_MAX) eqn:F; try discriminate.
    + destruct (insert_step h v k x I) as (A & B & C & D). rewrite A in E. inversion E; subst.
      destruct (h_insert ltk v k x h) as [b h'] eqn:HI. cbn [fst snd] in *. exists h'. split; auto. split; [|split; auto].
      * intros w. unfold mset. destruct (Nat.eqb_spec w v); [subst; auto|]. apply B; auto.
      * eapply ext_ptrs; eauto.
    + inversion E; subst. exists h. split; auto. split; [|split; auto]. intros w. unfold mset. destruct (Nat.eqb_spec w v); subst; auto.
  - (* Remove *) cbn [mstep] in E. unfold mcall, dict_remove in E. unfold view at 1 in E. rewrite erase_look in E. cbn [h_do].
    pose proof (listing_self ltk OK (hd h v) (in_sort h I v)) as LS.
    destruct (drops_ex ltk OK (fun k => map_find ltk k (hd h v)) k) as [m' M].
    destruct (erase_listing ltk OK k _ _ _ LS M) as (EL & ET & _). inversion E; subst. clear E.
    destruct (map_find ltk k (hd h v)) as [a|] eqn:F.
    + eexists. split.
      { f_equal. f_equal. f_equal. f_equal. symmetry. apply ET. exists a. exact F. }
      pose proof (proj1 (node_in h v k a I) F) as IA.
      destruct (cut_step h v (snd (map_erase ltk k (hd h v))) [(k, a)] I) as (A & B & C & D).
      * intros [j b]. destruct EL as [_ EL]. rewrite EL. destruct M as [M1 M2].
        destruct (key_dec ltk OK j k) as [->|N].
        -- rewrite M1. split; [|intros [X|[X|[]]]; [discriminate|inversion X; subst; auto]].
           intros X. right. left. f_equal. apply (keys_unique ltk OK (hd h v) k); auto. apply I.
        -- rewrite M2 by auto. rewrite (node_in h v j b I). split; auto. intros [X|[X|[]]]; auto. inversion X. congruence.
      * intros [j b] X. destruct EL as [_ EL]. apply EL in X. intros [Y|[]]. inversion Y; subst. destruct M as [M1 _]. congruence.
      * apply EL.
      * split; [|split; auto].
        -- intros w. unfold mset. destruct (Nat.eqb_spec w v); [subst; auto|]. apply C; auto.
        -- apply (D P P' (fun u j => u = v /\ j = k)); auto. intros u j b X. cbn [In]. split.
           ++ intros [-> ->]. split; auto. left. f_equal. apply (keys_unique ltk OK (hd h v) k); auto. apply I.
           ++ intros [-> [Y|[]]]. inversion Y. auto.
    + exists h. split.
      { f_equal. f_equal. f_equal. f_equal. symmetry. destruct (fst (map_erase ltk k (hd h v)) =? 1) eqn:Z; auto.
        destruct (proj1 ET eq_refl) as [y Y]. congruence. }
      assert (Q : snd (map_erase ltk k (hd h v)) = hd h v).
      { eapply (listing_unique ltk OK); [exact EL|exact LS|]. intros j. destruct M as [M1 M2].
        destruct (key_dec ltk OK j k) as [->|N]; [congruence|auto]. }
      split; [|split; auto].
      * intros w. unfold mset. destruct (Nat.eqb_spec w v); [|auto]. subst. unfold view. rewrite Q. auto.
      * intros r. specialize (L r). specialize (H r). destruct (P r) as [|u j|] eqn:PR.
        -- rewrite L. auto.
        -- cbn [ptr_ok] in H. destruct H as (b & HB & IB). destruct L as [[[-> ->] _]|[_ ->]].
           ++ destruct (proj1 (node_none h v k I) F b IB).
           ++ exists b. auto.
        -- rewrite L. auto.
  - (* Pop *) cbn [mstep] in E. unfold mcall, dict_pop in E. unfold view at 1 2 3 in E. rewrite look_size in E. cbn [h_do].
    destruct (check_empty (size (hd h v))) as [[]|ex| |] eqn:F; try discriminate.
    + destruct (hd h v) as [|[k a] d] eqn:HD; [discriminate|]. cbn [map] in E. inversion E; subst. clear E.
      eexists. split; [reflexivity|].
      pose proof (in_sort h I v) as IS. rewrite HD in IS. cbn [map fst] in IS. pose proof (head_fresh ltk OK _ _ IS) as HF.
      destruct (cut_step h v d [(k, a)] I) as (A & B & C & D).
      * intros p. rewrite HD. cbn [In]. intuition.
      * intros [j b] X [Y|[]]. inversion Y; subst. apply HF. apply in_map_iff. exists (j, b). auto.
      * eapply inc_tail; eauto.
      * split; [|split; auto].
        -- intros w. unfold mset. destruct (Nat.eqb_spec w v); [subst; auto|]. apply C; auto.
        -- assert (LE : least ltk (has (e v)) k).
           { destruct (S v) as [[_ SE] _]. unfold view in SE. rewrite HD in SE. cbn [map] in SE. split.
             - exists (hm h a). apply SE. left. auto.
             - intros j [y Y]. apply SE in Y. destruct Y as [Y|Y]; [inversion Y; auto|]. right.
               apply in_map_iff in Y. destruct Y as ([i b] & Y & Z). inversion Y; subst. inversion IS as [|? ? _ FA]; subst.
               rewrite Forall_forall in FA. apply FA. apply in_map_iff. exists (j, b). auto. }
           apply (D P P' (fun u j => u = v /\ least ltk (has (e v)) j)); auto. intros u j b X. cbn [In]. split.
           ++ intros [-> Y]. split; auto. left.
              assert (j = k).
              { destruct Y as [Y1 Y2], LE as [L1 L2]. destruct (Y2 k L1) as [|Y3]; auto. destruct (L2 j Y1) as [|L3]; auto.
                rewrite (lt_asym ltk OK _ _ Y3) in L3. discriminate. }
              subst j. f_equal. rewrite HD in X. destruct X as [X|X]; [congruence|]. destruct HF. apply in_map_iff. exists (k, b). auto.
           ++ intros [-> [Y|[]]]. inversion Y; subst. auto.
    + inversion E; subst. exists h. split; auto. split; [|split; auto].
      * intros w. unfold mset. destruct (Nat.eqb_spec w v); subst; auto.
      * assert (HN : hd h v = []).
        { unfold check_empty in F. destruct (Z.eqb_spec (size (hd h v)) 0) as [Z|Z]; [|discriminate]. rewrite size_ok in Z by auto.
          destruct (hd h v); auto. unfold len in Z. cbn [length] in Z. lia. }
        intros r. specialize (L r). specialize (H r). destruct (P r) as [|u j|] eqn:PR.
        -- rewrite L. auto.
        -- destruct H as (b & HB & IB). destruct L as [[[-> _] _]|[_ ->]]; [rewrite HN in IB; destruct IB|]. exists b. auto.
        -- rewrite L. auto.
  - (* Extend *) cbn [mstep] in E. unfold mguard in E. unfold view at 1 in E. rewrite look_size in E. cbn [h_do].
    destruct (len xs <=? INT_MAX - size (hd h v)).
    + unfold mcall, dict_extend in E. rewrite update_eq in E. inversion E; subst. eexists. split; [reflexivity|].
      destruct (range_step xs h v I) as (A & B & C & D). split; [|split; auto].
      * intros w. unfold mset. destruct (Nat.eqb_spec w v); [subst; auto|]. apply B; auto.
      * eapply ext_ptrs; eauto.
    + inversion E; subst. exists h. auto.
  - (* ExtendDict *) cbn [mstep] in E. unfold mguard in E. unfold view at 1 2 in E. rewrite !look_size in E. cbn [h_do].
    destruct (size (hd h w) <=? INT_MAX - size (hd h v)).
    + destruct (Nat.eqb_spec v w); [discriminate|]. unfold mcall, dict_extend in E. rewrite update_eq in E. inversion E; subst.
      eexists. split; [reflexivity|].
      destruct (range_step (view h w) h v I) as (A & B & C & D). split; [|split; auto].
      * intros u. unfold mset. destruct (Nat.eqb_spec u v); [subst; auto|]. apply B; auto.
      * eapply ext_ptrs; eauto.
    + inversion E; subst. exists h. auto.
  - (* Clear *) cbn [mstep] in E. unfold mcall, dict_clear in E. rewrite update_eq in E. inversion E; subst. cbn [h_do].
    eexists. split; [reflexivity|]. destruct (good_cut h v P' I) as (C1 & C2 & C3 & C4). split; [|split; auto].
    + intros w. unfold mset. destruct (Nat.eqb_spec w v); [subst; auto|]. apply C4; auto.
    + eapply C1; eauto.
  - (* Iterate *) cbn [mstep] in E. inversion E; subst. apply R; auto.
Qed.

(** ** Every statement *)

Lemma good_stands : forall h h' s' e' P', good h h' s' P' -> mstands ltk s' e' -> hstands ltk h' e' P'.
Proof.
  intros h h' s' e' P' (A & B & C) S. constructor; try apply B.
  - intros v. rewrite A. apply S.
  - intros r. specialize (C r). destruct (P' r); exact C.
Qed.

Lemma stands_ptrs : forall h e P, hstands ltk h e P -> ptrs_ok h P.
Proof. intros h e P S r. pose proof (st_ptr _ _ _ _ S r) as X. destruct (P r); exact X. Qed.

Lemma find_stands : forall h e P v k, hstands ltk h e P -> option_map (hm h) (map_find ltk k (hd h v)) = e v k.
Proof.
  intros h e P v k S. rewrite <- find_look. apply (find_listing ltk OK). apply (st_view _ _ _ _ S).
Qed.

Lemma find_has : forall h e P v k, hstands ltk h e P -> has (e v) k -> exists a, map_find ltk k (hd h v) = Some a /\ In (k, a) (hd h v).
Proof.
  intros h e P v k S (x & X). rewrite <- (find_stands h e P v k S) in X. destruct (map_find ltk k (hd h v)) as [a|] eqn:F; [|discriminate].
  exists a. split; auto. apply (node_in h v k a (stands_inv _ _ _ S)). auto.
Qed.

Lemma find_absent : forall h e P v k, hstands ltk h e P -> e v k = None -> map_find ltk k (hd h v) = None.
Proof.
  intros h e P v k S X. rewrite <- (find_stands h e P v k S) in X. destruct (map_find ltk k (hd h v)); auto. discriminate.
Qed.

Lemma to_at : forall h e P r v k, hstands ltk h e P -> P r = To v k ->
  exists a x, h_at h r = Ok a /\ hr h r = Some a /\ In (k, a) (hd h v) /\ hm h a = x /\ e v k = Some x.
Proof.
  intros h e P r v k S X. pose proof (st_ptr _ _ _ _ S r) as Y. rewrite X in Y. destruct Y as (a & A & B). exists a, (hm h a).
  split; [|split; [|split; [|split]]]; auto.
  - unfold h_at. rewrite A, (st_live _ _ _ _ S v k a B). auto.
  - pose proof (find_stands h e P v k S) as F. rewrite (proj2 (node_in h v k a (stands_inv _ _ _ S)) B) in F. auto.
Qed.

Lemma not_to_at : forall h e P r, hstands ltk h e P -> (forall v k, P r <> To v k) -> h_at h r = UB BadDeref.
Proof.
  intros h e P r S X. pose proof (st_ptr _ _ _ _ S r) as Y. unfold h_at. destruct (P r) as [|v k|].
  - rewrite Y. auto.
  - destruct (X v k). auto.
  - destruct Y as (a & A & B & _). rewrite A, B. auto.
Qed.

Lemma bind_stands : forall h e P P' r p o, hstands ltk h e P -> points P r p P' -> ptr_ok h p o -> hstands ltk (h_bind r o h) e P'.
Proof.
  intros h e P P' r p o S [A B] Q. constructor; unfold h_bind; cbn [hd hl hn hr]; try apply S.
  intros q. unfold nset. destruct (Nat.eqb_spec q r).
  - subst. destruct (P' r); exact Q.
  - rewrite B by auto. apply (st_ptr _ _ _ _ S q).
Qed.

Lemma temp_stands : forall h e P, hstands ltk h e P -> hstands ltk (snd (h_temporary h)) e P.
Proof.
  intros h e P S. constructor; cbn [h_temporary snd hd hl hn hr]; try apply S.
  - intros a A. apply (st_old _ _ _ _ S) in A. lia.
  - intros q. pose proof (st_ptr _ _ _ _ S q) as Y. destruct (P q); auto. destruct Y as (b & Y1 & Y2 & Y3). exists b. auto.
Qed.

Lemma puts_find : forall (d : list (K * V)) (m : @fmap K V) k x d' (m' : @fmap K V), listing ltk d m -> puts m k x m' -> map_assign ltk k x d = Some d' -> listing ltk d' m'.
Proof.
  intros d m k x d' m' L Q A. destruct (has_dec m k) as [M|M].
  - destruct (assign_present ltk OK k x d m m' L M Q) as (d1 & E & X). assert (d1 = d') by congruence. subst. tauto.
  - rewrite (assign_absent ltk OK k x d m L M) in A. discriminate.
Qed.

Lemma rcomplete : forall c h e P e' P' ev, hstands ltk h e P -> pint_stmt c -> rstep ltk ltv showk showv c e P e' P' ev ->
  exists h', h_step ltk eqk ltv eqv showk showv c h = Ok (h', ev) /\ hstands ltk h' e' P'.
Proof.
  intros c h e P e' P' ev S A H. pose proof (stands_inv _ _ _ S) as I. inversion H; subst; cbn [h_step].
  - destruct (fcomplete ltk eqk ltv eqv showk showv OK OV DK DV _ _ _ _ _ (st_view _ _ _ _ S) A H0) as (s' & E & S').
    destruct (do_match c0 h e s' ev P P' I (st_view _ _ _ _ S) (stands_ptrs _ _ _ S) H1 E) as (h' & Q & G).
    exists h'. split; auto. eapply good_stands; eauto.
  - destruct (find_has h e' P v k S H0) as (a & F & B). rewrite F. eexists. split; [reflexivity|]. eapply bind_stands; eauto.
    cbn. eauto.
  - rewrite (find_absent h e' P' v k S H0). eauto.
  - destruct (find_has h e' P v k S H0) as (a & F & B). rewrite F. eexists. split; [reflexivity|].
    eapply (bind_stands (snd (h_temporary h))); [apply temp_stands; eauto|eauto|cbn; eauto].
  - rewrite (find_absent h e' P v k S H0). eexists. split; [reflexivity|].
    eapply (bind_stands (snd (h_temporary h))); [apply temp_stands; eauto|eauto|].
    cbn. exists (hn h). split; auto. split; auto. destruct (hl h (hn h)) eqn:Y; auto. apply (st_old _ _ _ _ S) in Y. lia.
  - destruct (to_at h e' P q w j S H0) as (t & x & T1 & T2 & T3 & T4 & T5). rewrite T1. cbn [bind].
    destruct (find_has h e' P v k S H1) as (a & F & B). rewrite F. eexists. split; [reflexivity|]. eapply bind_stands; eauto. cbn. eauto.
  - destruct (to_at h e' P q w j S H0) as (t & x & T1 & T2 & T3 & T4 & T5). rewrite T1. cbn [bind].
    rewrite (find_absent h e' P v k S H1). eexists. split; [reflexivity|]. eapply bind_stands; eauto. cbn. eauto.
  - eexists. split; [reflexivity|]. eapply bind_stands; eauto. pose proof (st_ptr _ _ _ _ S q) as Y. destruct (P q); exact Y.
  - destruct (to_at h e' P' r v k S H0) as (a & y & T1 & T2 & T3 & T4 & T5). rewrite T1. cbn [bind].
    assert (y = x) by congruence. subst. eauto.
  - destruct (to_at h e P' r v k S H0) as (a & y & T1 & T2 & T3 & T4 & T5). rewrite T1. cbn [bind]. eexists. split; [reflexivity|].
    destruct (write_step h v k a x I T3) as (W1 & W2 & W3).
    assert (ML : mstands ltk (view (h_write a x h)) (fset e v m)).
    { intros w. unfold fset. destruct (Nat.eqb_spec w v).
      - subst w. destruct (st_view _ _ _ _ S v) as [L1 L2]. rewrite W1. split.
        + eapply puts_find; eauto. unfold view. rewrite assign_look by (apply nodup_nodes; auto).
          rewrite (proj2 (node_in h v k a I) T3). auto.
        + unfold view in L2. rewrite map_length in *. auto.
      - rewrite W2 by auto. apply S. }
    apply (good_stands h _ _ _ _) with (2 := ML). split; [reflexivity|]. split; [apply inv_write; auto|]. apply W3. apply (stands_ptrs _ _ _ S).
Qed.

(** ** Refinement *)

Lemma lost_ex : forall (b : nat -> K -> bool) (dead : nat -> K -> Prop) (P : nat -> ptr K), (forall v k, b v k = true <-> dead v k) ->
  exists P', lost dead P P'.
Proof.
  intros b dead P H. exists (fun r => match P r with To v k => if b v k then Gone else To v k | p => p end). intros r.
  destruct (P r) as [|v k|]; auto. destruct (b v k) eqn:B.
  - left. split; auto. apply H. auto.
  - right. split; auto. intros X. apply H in X. congruence.
Qed.

Lemma after_ex : forall c h e (P : nat -> ptr K), mstands ltk (view h) e -> exists P', after ltk c e P P'.
Proof.
  intros c h e P S.
  assert (N : exists P', lost (fun (_ : nat) (_ : K) => False) P P') by (apply (lost_ex (fun _ _ => false)); intros; split; [discriminate|tauto]).
  assert (N1 : forall v, exists P', lost (fun (u : nat) (_ : K) => u = v) P P').
  { intros v. apply (lost_ex (fun u _ => Nat.eqb u v)). intros. apply Nat.eqb_eq. }
  destruct c; cbn [after]; auto.
  - apply (lost_ex (fun u _ => Nat.eqb u v && negb (Nat.eqb v w))). intros. rewrite andb_true_iff, negb_true_iff, Nat.eqb_eq, Nat.eqb_neq. tauto.
  - exists (fun r => match P r with To u k => if Nat.eqb u v then Gone else if Nat.eqb u w then To v k else To u k | p => p end). intros r.
    destruct (P r) as [|u k|]; auto. destruct (Nat.eqb_spec u v); auto. destruct (Nat.eqb_spec u w); auto.
  - apply (lost_ex (fun u j => Nat.eqb u v && eqk j k)). intros. rewrite andb_true_iff, Nat.eqb_eq. rewrite (DK k0 k). tauto.
  - destruct (S v) as [L _]. destruct (view h v) as [|[k0 x0] d] eqn:E.
    + apply (lost_ex (fun _ _ => false)). intros u j. split; [discriminate|]. intros [_ [[y Y] _]]. destruct L as [_ L]. apply L in Y. destruct Y.
    + apply (lost_ex (fun u j => Nat.eqb u v && eqk j k0)). intros u j. rewrite andb_true_iff, Nat.eqb_eq, (DK j k0).
      pose proof (head_least ltk k0 (map fst d) _ (listing_keys ltk _ _ L)) as HL.
      split; intros [-> X]; split; auto.
      * subst. auto.
      * eapply (least_unique ltk OK); eauto.
Qed.

Definition prisky (c : pstmt K V) h (P : nat -> ptr K) : Prop :=
  (exists d, c = PDo d /\ mrisky d (view h)) \/ (exists r, derefs c r /\ forall v k, P r <> To v k).

Lemma to_dec : forall (P : nat -> ptr K) r, (exists v k, P r = To v k) \/ forall v k, P r <> To v k.
Proof. intros P r. destruct (P r); eauto; right; discriminate. Qed.

Lemma points_ex : forall (P : nat -> ptr K) r p, exists P', points P r p P'.
Proof.
  intros P r p. exists (nset P r p). unfold points, nset. rewrite Nat.eqb_refl. split; auto. intros q N.
  destruct (Nat.eqb_spec q r); [contradiction|auto].
Qed.

Lemma rtotal : forall c h e P, hstands ltk h e P -> (exists e' P' ev, rstep ltk ltv showk showv c e P e' P' ev) \/ prisky c h P.
Proof.
  intros c h e P S. unfold prisky. destruct c as [c|r v k|r v k x|r v k q|r q|r|r x]; cbn [derefs].
  - destruct (ftotal ltk eqk ltv eqv showk showv OK OV DK DV c _ _ (st_view _ _ _ _ S)) as [(e' & ev & X)|X].
    + destruct (after_ex c h e P (st_view _ _ _ _ S)) as (P' & Q). left. exists e', P', ev. constructor; auto.
    + right. left. eauto.
  - left. destruct (has_dec (e v) k); [destruct (points_ex P r (To v k)) as [P' Q]; do 3 eexists; eapply r_addr; eauto|do 3 eexists; apply r_addr_absent; auto].
  - left. destruct (has_dec (e v) k); [destruct (points_ex P r (To v k)) as [P' Q]; do 3 eexists; eapply r_get; eauto|].
    destruct (points_ex P r Gone) as [P' Q]. do 3 eexists. eapply r_get_absent; eauto.
  - destruct (to_dec P q) as [(w & j & T)|T]; [left|right; right; eauto].
    destruct (has_dec (e v) k); [destruct (points_ex P r (To v k)) as [P' Q]; do 3 eexists; eapply r_get_or; eauto|].
    destruct (points_ex P r (To w j)) as [P' Q]. do 3 eexists. eapply r_get_or_absent; eauto.
  - left. destruct (points_ex P r (P q)) as [P' Q]. do 3 eexists. eapply r_same; eauto.
  - destruct (to_dec P r) as [(w & j & T)|T]; [left|right; right; eauto].
    destruct (to_at h e P r w j S T) as (a & x & _ & _ & _ & _ & X). do 3 eexists. eapply r_read; eauto.
  - destruct (to_dec P r) as [(w & j & T)|T]; [left|right; right; eauto].
    destruct (puts_ex ltk OK (e w) j x) as [m M]. do 3 eexists. eapply r_write; eauto.
Qed.

Lemma risky_step : forall c h e P, hstands ltk h e P -> pint_stmt c -> prisky c h P ->
  (exists u, h_step ltk eqk ltv eqv showk showv c h = UB u) \/ (exists e' P' ev, rstep ltk ltv showk showv c e P e' P' ev).
Proof.
  intros c h e P S A [(d & -> & R)|(r & D & T)].
  - cbn [h_step]. destruct R as [(v & ->)|[(v & ->)|(v & N & [->| ->])]]; cbn [h_do mstep].
    + rewrite Nat.eqb_refl. eauto.
    + destruct (size (hd h v) <=? INT_MAX - size (hd h v)) eqn:G; [rewrite Nat.eqb_refl; eauto|]. right.
      destruct (after_ex (MExtendDict v v) h e P (st_view _ _ _ _ S)) as (P' & Q). exists e, P', []. constructor; auto.
      apply f_extend_dict_no. rewrite (mfit_ok ltk OK (view h) e v v (st_view _ _ _ _ S)).
      destruct (st_view _ _ _ _ S v) as [_ L]. unfold view in *. rewrite map_length in L. rewrite look_len.
      rewrite size_ok in G by (unfold len; lia). apply Z.leb_gt in G. lia.
    + rewrite N. left. cbn. eauto.
    + rewrite N. left. cbn. eauto.
  - left. pose proof (not_to_at h e P r S T) as X. destruct c; cbn [derefs] in D; try contradiction; subst; cbn [h_step]; rewrite X; cbn; eauto.
Qed.

Lemma step_cases : forall c h e P, hstands ltk h e P -> pint_stmt c ->
  (exists h' e' P' ev, h_step ltk eqk ltv eqv showk showv c h = Ok (h', ev) /\ rstep ltk ltv showk showv c e P e' P' ev /\ hstands ltk h' e' P') \/
  (exists u, h_step ltk eqk ltv eqv showk showv c h = UB u) /\ prisky c h P.
Proof.
  intros c h e P S A.
  assert (G : (exists e' P' ev, rstep ltk ltv showk showv c e P e' P' ev) ->
    exists h' e' P' ev, h_step ltk eqk ltv eqv showk showv c h = Ok (h', ev) /\ rstep ltk ltv showk showv c e P e' P' ev /\ hstands ltk h' e' P').
  { intros (e' & P' & ev & R). destruct (rcomplete c h e P e' P' ev S A R) as (h' & X & Y). exists h', e', P', ev. auto. }
  destruct (rtotal c h e P S) as [R|R]; [left; auto|]. destruct (risky_step c h e P S A R) as [U|X]; [right; auto|left; auto].
Qed.

Theorem rrun_complete : forall prog h e P e' P' ev, hstands ltk h e P -> Forall pint_stmt prog -> rrun ltk ltv showk showv prog e P e' P' ev ->
  exists h', h_run ltk eqk ltv eqv showk showv prog h = Ok (h', ev) /\ hstands ltk h' e' P'.
Proof.
  induction prog as [|c prog]; intros h e P e' P' ev S A H; inversion H as [|c0 r0 e0 P0 e1 P1 e2 P2 ev1 ev2 X Y]; subst; cbn [h_run].
  - eauto.
  - inversion A as [|c0 p0 A1 A2]; subst. destruct (rcomplete _ _ _ _ _ _ _ S A1 X) as (h1 & E & S1). rewrite E. cbn [bind fst snd].
    destruct (IHprog _ _ _ _ _ _ S1 A2 Y) as (h2 & F & S2). rewrite F. cbn [bind fst snd]. eauto.
Qed.

Theorem h_run_cases : forall prog h e P, hstands ltk h e P -> Forall pint_stmt prog ->
  (exists h' e' P' ev, h_run ltk eqk ltv eqv showk showv prog h = Ok (h', ev) /\ rrun ltk ltv showk showv prog e P e' P' ev /\ hstands ltk h' e' P') \/
  (exists u, h_run ltk eqk ltv eqv showk showv prog h = UB u).
Proof.
  induction prog as [|c prog]; intros h e P S A; cbn [h_run].
  - left. exists h, e, P, []. split; auto. split; [constructor|auto].
  - inversion A; subst. destruct (step_cases c h e P S H1) as [(h1 & e1 & P1 & ev1 & X & Y & Z)|[[u U] _]].
    + rewrite X. cbn [bind fst snd]. destruct (IHprog h1 e1 P1 Z H2) as [(h2 & e2 & P2 & ev2 & X2 & Y2 & Z2)|[u U]].
      * rewrite X2. cbn [bind fst snd]. left. exists h2, e2, P2, (ev1 ++ ev2). split; auto. split; auto. econstructor; eauto.
      * rewrite U. cbn [bind]. right. eauto.
    + rewrite U. cbn [bind]. right. eauto.
Qed.

Theorem h_run_refines : forall prog h e P h' ev, hstands ltk h e P -> Forall pint_stmt prog -> h_run ltk eqk ltv eqv showk showv prog h = Ok (h', ev) ->
  exists e' P', rrun ltk ltv showk showv prog e P e' P' ev /\ hstands ltk h' e' P'.
Proof.
  intros prog h e P h' ev S A E. destruct (h_run_cases prog h e P S A) as [(h2 & e2 & P2 & ev2 & X & Y & Z)|[u U]]; [|congruence].
  assert (h2 = h' /\ ev2 = ev) as [-> ->] by (split; congruence). eauto.
Qed.

Theorem h_step_ub : forall c h e P, hstands ltk h e P -> pint_stmt c ->
  ((exists u, h_step ltk eqk ltv eqv showk showv c h = UB u) <->
   ~ exists e' P' ev, rstep ltk ltv showk showv c e P e' P' ev).
Proof.
  intros c h e P S A. split.
  - intros [u U] (e' & P' & ev & R). destruct (rcomplete c h e P e' P' ev S A R) as (h' & X & _). congruence.
  - intros N. destruct (step_cases c h e P S A) as [(h' & e' & P' & ev & _ & Y & _)|[U _]]; auto. destruct N. eauto.
Qed.

Theorem h_step_risky : forall c h e P u, hstands ltk h e P -> pint_stmt c -> h_step ltk eqk ltv eqv showk showv c h = UB u ->
  (exists v, c = PDo (MMove v v) \/ c = PDo (MExtendDict v v)) \/
  (exists v, (forall k, e v k = None) /\ (c = PDo (MMin v) \/ c = PDo (MMax v))) \/
  (exists r, derefs c r /\ forall v k, P r <> To v k).
Proof.
  intros c h e P u S A U. destruct (step_cases c h e P S A) as [(h' & e' & P' & ev & X & _)|[_ R]]; [congruence|].
  destruct R as [(d & -> & R)|R]; auto. destruct R as [(v & ->)|[(v & ->)|(v & N & R)]].
  - left. eauto.
  - left. eauto.
  - right. left. exists v. split; [|destruct R; subst; auto]. intros k. destruct (st_view _ _ _ _ S v) as [[_ L] _]. rewrite N in L.
    destruct (e v k) eqn:Y; auto. apply L in Y. destruct Y.
Qed.

Theorem deref_ub : forall c h e P r, hstands ltk h e P -> derefs c r -> (forall v k, P r <> To v k) ->
  h_step ltk eqk ltv eqv showk showv c h = UB BadDeref.
Proof.
  intros c h e P r S D T. pose proof (not_to_at h e P r S T) as X. destruct c; cbn [derefs] in D; try contradiction; subst; cbn [h_step]; rewrite X; auto.
Qed.

(** ** Clients *)

Lemma step_run : forall c rest h h' ev, h_step ltk eqk ltv eqv showk showv c h = Ok (h', ev) ->
  h_run ltk eqk ltv eqv showk showv (c :: rest) h = (he <- h_run ltk eqk ltv eqv showk showv rest h' ;; Ok (fst he, ev ++ snd he)).
Proof. intros c rest h h' ev X. cbn [h_run]. rewrite X. reflexivity. Qed.

Lemma rcomplete_run : forall c rest h e P e' P' ev, hstands ltk h e P -> pint_stmt c -> rstep ltk ltv showk showv c e P e' P' ev ->
  exists h', hstands ltk h' e' P' /\ h_run ltk eqk ltv eqv showk showv (c :: rest) h =
    (he <- h_run ltk eqk ltv eqv showk showv rest h' ;; Ok (fst he, ev ++ snd he)).
Proof.
  intros c rest h e P e' P' ev S A R. destruct (rcomplete c h e P e' P' ev S A R) as (h' & X & Y). exists h'. split; auto.
  cbn [h_run]. rewrite X. reflexivity.
Qed.

Lemma read_last : forall h e P r v k x, hstands ltk h e P -> P r = To v k -> e v k = Some x ->
  h_run ltk eqk ltv eqv showk showv [PRead r] h = Ok (h, [MVal x]).
Proof.
  intros h e P r v k x S T X. destruct (to_at h e P r v k S T) as (a & y & T1 & _ & _ & T4 & T5). cbn [h_run h_step]. rewrite T1. cbn.
  congruence.
Qed.

Lemma read_gone : forall h e P r, hstands ltk h e P -> P r = Gone -> h_run ltk eqk ltv eqv showk showv [PRead r] h = UB BadDeref.
Proof. intros h e P r S T. cbn [h_run h_step]. rewrite (not_to_at h e P r S); auto. rewrite T. discriminate. Qed.

Theorem get_exact : forall h e P r v k x, hstands ltk h e P ->
  (forall y, e v k = Some y -> exists h', h_run ltk eqk ltv eqv showk showv [PGet r v k x; PRead r] h = Ok (h', [MVal y])) /\
  (e v k = None -> h_run ltk eqk ltv eqv showk showv [PGet r v k x; PRead r] h = UB BadDeref).
Proof.
  intros h e P r v k x S. split.
  - intros y Y. destruct (points_ex P r (To v k)) as [P' Q].
    destruct (rcomplete_run (PGet r v k x) [PRead r] h e P e P' [] S Logic.I) as (h' & S' & E); [apply r_get; [eexists; eauto|auto]|].
    rewrite E. rewrite (read_last h' e P' r v k y S'); auto; [|apply Q]. cbn. eauto.
  - intros N. destruct (points_ex P r Gone) as [P' Q].
    destruct (rcomplete_run (PGet r v k x) [PRead r] h e P e P' [] S Logic.I) as (h' & S' & E); [apply r_get_absent; auto|].
    rewrite E. rewrite (read_gone h' e P' r S'); auto. apply Q.
Qed.

(** A reference is kept through anything that grows any Dict. *)
Theorem kept_extend : forall h e P r v k w xs y, hstands ltk h e P -> Z.of_nat (length xs) <= INT_MAX -> e v k = Some y ->
  exists h', h_run ltk eqk ltv eqv showk showv [PAddr r v k; PDo (MExtend w xs); PRead r] h = Ok (h', [MVal y]).
Proof.
  intros h e P r v k w xs y S L Y. destruct (points_ex P r (To v k)) as [P' Q].
  destruct (rcomplete_run (PAddr r v k) [PDo (MExtend w xs); PRead r] h e P e P' [] S Logic.I) as (h1 & S1 & E1); [apply r_addr; [eexists; eauto|auto]|].
  rewrite E1.
  destruct (step_cases (PDo (MExtend w xs)) h1 e P' S1) as [(h2 & e2 & P2 & ev2 & X2 & Y2 & Z2)|[_ R]].
  - cbn. auto.
  - assert (F : ev2 = [] /\ e2 v k = Some y /\ P2 r = To v k).
    { inversion Y2 as [c1 ea Pa eb Pb evv F1 F2| | | | | | | | |]; subst. cbn [after] in F2. rewrite (lost_none _ _ F2).
      inversion F1; subst; split; auto; split; try apply Q; auto. unfold fset. destruct (Nat.eqb_spec v w); auto. subst.
      match goal with M : extended _ _ _ |- _ => exact (proj1 (M k) y Y) end. }
    destruct F as (-> & F2 & F3). rewrite (step_run _ _ _ _ _ X2).
    rewrite (read_last h2 e2 P2 r v k y Z2 F3 F2). cbn. eauto.
  - exfalso. destruct R as [(d & D & R)|(q & D & _)]; [|destruct D]. inversion D; subst.
    destruct R as [(u & R)|[(u & R)|(u & _ & [R|R])]]; discriminate.
Qed.

(** A reference to a removed entry stays dead when the key comes back. *)
Theorem readded : forall h e P r v k x, hstands ltk h e P -> has (e v) k ->
  h_run ltk eqk ltv eqv showk showv [PAddr r v k; PDo (MRemove v k); PDo (MAdd v k x); PRead r] h = UB BadDeref.
Proof.
  intros h e P r v k x S HK. destruct (points_ex P r (To v k)) as [P1 Q1].
  destruct (rcomplete_run (PAddr r v k) [PDo (MRemove v k); PDo (MAdd v k x); PRead r] h e P e P1 [] S Logic.I) as (h1 & S1 & E1); [apply r_addr; auto|].
  rewrite E1. destruct (drops_ex ltk OK (e v) k) as [m M].
  destruct (after_ex (MRemove v k) h1 e P1 (st_view _ _ _ _ S1)) as (P2 & Q2).
  destruct (rcomplete_run (PDo (MRemove v k)) [PDo (MAdd v k x); PRead r] h1 e P1 (fset e v m) P2 [MBool true] S1 Logic.I) as (h2 & S2 & E2).
  { apply r_do; [|exact Q2]. apply f_remove; [|exact M]. unfold tells. tauto. }
  rewrite E2. destruct (puts_ex ltk OK m k x) as [m' M'].
  destruct (after_ex (MAdd v k x) h2 (fset e v m) P2 (st_view _ _ _ _ S2)) as (P3 & Q3).
  assert (G2 : P2 r = Gone).
  { specialize (Q2 r). rewrite (proj1 Q1) in Q2. destruct Q2 as [[_ ?]|[N _]]; auto. destruct N. auto. }
  destruct (step_cases (PDo (MAdd v k x)) h2 (fset e v m) P2 S2 Logic.I) as [(h3 & e3 & P4 & ev3 & X3 & Y3 & Z3)|[_ R]].
  - rewrite (step_run _ _ _ _ _ X3).
    assert (G3 : P4 r = Gone) by (inversion Y3 as [c1 ea Pa eb Pb evv F1 F2| | | | | | | | |]; subst; cbn [after] in F2; rewrite (lost_none _ _ F2); auto).
    rewrite (read_gone h3 e3 P4 r Z3 G3). reflexivity.
  - exfalso. destruct R as [(d & D & R)|(q & D & _)]; [|destruct D]. inversion D; subst.
    destruct R as [(u & R)|[(u & R)|(u & _ & [R|R])]]; discriminate.
Qed.

(** Writing through a reference is assigning to the entry. *)
Theorem write_same : forall h e P r v k x, hstands ltk h e P -> has (e v) k ->
  exists h1 h2, h_run ltk eqk ltv eqv showk showv [PAddr r v k; PWrite r x] h = Ok (h1, []) /\
    h_run ltk eqk ltv eqv showk showv [PAddr r v k; PDo (MSet v k x)] h = Ok (h2, []) /\ forall w, view h1 w = view h2 w.
Proof.
  intros h e P r v k x S HK. destruct (points_ex P r (To v k)) as [P1 Q1]. destruct (puts_ex ltk OK (e v) k x) as [m M].
  destruct (after_ex (MSet v k x) h e P1 (st_view _ _ _ _ S)) as (P2 & Q2).
  destruct (rrun_complete [PAddr r v k; PWrite r x] h e P (fset e v m) P1 ([] ++ [] ++ []) S) as (h1 & E1 & S1).
  { repeat constructor. }
  { econstructor; [apply r_addr; eauto|]. econstructor; [eapply r_write; eauto; apply Q1|constructor]. }
  destruct (rrun_complete [PAddr r v k; PDo (MSet v k x)] h e P (fset e v m) P2 ([] ++ [] ++ []) S) as (h2 & E2 & S2).
  { repeat constructor. }
  { econstructor; [apply r_addr; eauto|]. econstructor; [apply r_do; [apply f_set; eauto|eauto]|constructor]. }
  exists h1, h2. split; auto. split; auto. intros w.
  apply (listing_unique ltk OK _ _ (fset e v m w) (fset e v m w)); [apply S1|apply S2|]. intros j. reflexivity.
Qed.
End Ref.

Lemma start_stands : hstands Z.ltb (HState (fun _ => []) (fun _ => 0) (fun _ => false) 0%nat (fun _ => None)) (fun _ => @no_entry Z Z) (fun _ => Null).
Proof.
  constructor; cbn; try contradiction; try discriminate; auto. intros v. split; [|cbn; unfold INT_MAX; lia].
  split; [constructor|]. intros k x. split; [contradiction|discriminate].
Qed.

Theorem get_dangles : exists (h : hstate Z Z) e P r v k x, hstands Z.ltb h e P /\
  h_step Z.ltb Z.eqb Z.ltb Z.eqb (fun _ => []) (fun _ => []) (PGet r v k x) h <> UB BadDeref /\
  h_run Z.ltb Z.eqb Z.ltb Z.eqb (fun _ => []) (fun _ => []) [PGet r v k x; PRead r] h = UB BadDeref.
Proof.
  do 3 eexists. exists 0%nat, 0%nat, 1, 5. split; [exact start_stands|]. split; [discriminate|reflexivity].
Qed.
