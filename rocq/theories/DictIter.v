(** Proofs about iterators over Dicts. *)
From Coq Require Import ZArith List Bool Ascii Lia Sorted.
From Verif Require Import Outcome ListModel ListSpec ListFacts ListMore SetModel SetSpec SetFacts SetProg SetMore
  DictModel DictSpec DictFacts DictProg DictRefModel DictRefSpec DictRef DictIterModel DictIterSpec.
Import ListNotations.
Open Scope Z_scope.

Section Iter.
Context {K V : Type} (ltk eqk : K -> K -> bool) (ltv eqv : V -> V -> bool) (showk : K -> list ascii) (showv : V -> list ascii).
Hypothesis OK : strict_total ltk.
Hypothesis OV : strict_total ltv.
Hypothesis DK : decides eqk.
Hypothesis DV : decides eqv.
Notation hst := (hstate K V).
Notation state := (istate K V).
Implicit Types h : hst.
Implicit Types s : state.
Notation nodes := (list (K * nat)).
Notation hdo := (h_do ltk eqk ltv eqv showk showv).
Notation hstep := (h_step ltk eqk ltv eqv showk showv).
Notation istep := (i_step ltk eqk ltv eqv showk showv).
Notation irun := (i_run ltk eqk ltv eqv showk showv).
Notation spec := (istep_spec ltk ltv showk showv).

(** ** Dict statements do not look at the pointers *)

Definition with_hr (f : nat -> option nat) h : hst := HState (hd h) (hm h) (hl h) (hn h) f.
Definition lift_hr (f : nat -> option nat) (o : outcome (hst * list (mevent K V))) :=
  match o with Ok (h, ev) => Ok (with_hr f h, ev) | Throw e => Throw e | UB u => UB u | OutOfFuel => OutOfFuel end.

Lemma insert_hr : forall f v k x h, h_insert ltk v k x (with_hr f h) = (fst (h_insert ltk v k x h), with_hr f (snd (h_insert ltk v k x h))).
Proof. intros f v k x h. unfold h_insert, with_hr. cbn [hd hm hl hn hr]. destruct (map_insert ltk k (hn h) (hd h v)) as [[] d]; reflexivity. Qed.

Lemma range_hr : forall xs f v h, h_insert_range ltk v xs (with_hr f h) = with_hr f (h_insert_range ltk v xs h).
Proof.
  induction xs as [|[k x] xs]; intros f v h; auto. unfold h_insert_range. cbn [fold_left fst snd]. rewrite insert_hr. cbn [snd].
  apply IHxs.
Qed.

Lemma cut_hr : forall f v d g h, h_cut v d g (with_hr f h) = with_hr f (h_cut v d g h).
Proof. reflexivity. Qed.

Lemma do_hr : forall c f h, hdo c (with_hr f h) = lift_hr f (hdo c h).
Proof.
  intros c f h. destruct c; cbn [h_do]; try change (view (with_hr f h)) with (view h); try change (hd (with_hr f h)) with (hd h).
  all: try (destruct (mstep _ _ _ _ _ _ _ _) as [[? ?]| | |]; reflexivity).
  - rewrite cut_hr, range_hr. reflexivity.
  - destruct (Nat.eqb v w); [reflexivity|]. rewrite cut_hr, range_hr. reflexivity.
  - destruct (Nat.eqb v w); reflexivity.
  - destruct (map_find ltk k (hd h v)); reflexivity.
  - destruct (check_full _ _); try reflexivity. rewrite insert_hr. destruct (h_insert ltk v k x h). reflexivity.
  - destruct (map_find ltk k (hd h v)); reflexivity.
  - destruct (check_empty _); try reflexivity. destruct (hd h v); reflexivity.
  - destruct (_ <=? _); [|reflexivity]. rewrite range_hr. reflexivity.
  - destruct (_ <=? _); [|reflexivity]. destruct (Nat.eqb v w); [reflexivity|]. rewrite range_hr. reflexivity.
  - rewrite cut_hr. reflexivity.
Qed.

Lemma with_hr_same : forall h, with_hr (hr h) h = h.
Proof. intros []. reflexivity. Qed.

(** ** Where the nodes are *)

Lemma insert_nodes : forall h v k x u p, In p (hd (snd (h_insert ltk v k x h)) u) -> In p (hd h u) \/ u = v /\ (hn h <= snd p)%nat.
Proof.
  intros h v k x u p. unfold h_insert. destruct (map_insert ltk k (hn h) (hd h v)) as [b d] eqn:E. destruct b; cbn [snd hd]; auto.
  unfold nset. destruct (Nat.eqb_spec u v); auto. subst. intros A. apply (insert_in ltk showk _ _ _ _ E) in A. destruct A as [->|A]; auto.
Qed.

Lemma insert_next : forall h v k x, (hn h <= hn (snd (h_insert ltk v k x h)))%nat.
Proof. intros h v k x. unfold h_insert. destruct (map_insert ltk k (hn h) (hd h v)) as [[] d]; cbn [snd hn]; lia. Qed.

Lemma range_nodes : forall xs h v u p, In p (hd (h_insert_range ltk v xs h) u) -> In p (hd h u) \/ u = v /\ (hn h <= snd p)%nat.
Proof.
  induction xs as [|[k x] xs]; intros h v u p; auto. unfold h_insert_range. cbn [fold_left fst snd]. intros A.
  apply IHxs in A. pose proof (insert_next h v k x). destruct A as [A|[A B]]; [|right; split; auto; lia].
  apply insert_nodes in A. auto.
Qed.

Lemma erase_in : forall k (l : nodes) p, In p (snd (map_erase ltk k l)) -> In p l.
Proof.
  intros k l p. unfold map_erase. destruct (map_lower ltk k l) as [a b] eqn:E. destruct (map_lower_ok ltk k l a b E) as [-> _].
  destruct b as [|q b]; auto. destruct (ltk k (fst q)); cbn [snd]; auto. rewrite !in_app_iff. cbn [In]. tauto.
Qed.

Lemma do_nodes : forall c h h' ev u p, hdo c h = Ok (h', ev) -> In p (hd h' u) ->
  match c with
  | MMove v w => v <> w /\ (u = v /\ In p (hd h w) \/ u <> v /\ u <> w /\ In p (hd h u))
  | _ => In p (hd h u) \/ u = target c /\ (hn h <= snd p)%nat
  end.
Proof.
  intros c h h' ev u p E A. destruct c; cbn [h_do target] in E |- *.
  all: try (destruct (mstep _ _ _ _ _ _ _ _) as [[? ?]| | |]; inversion E; subst; auto; fail).
  - inversion E; subst. apply range_nodes in A. destruct A as [A|A]; auto. unfold h_cut in A. cbn [hd] in A. unfold nset in A.
    destruct (Nat.eqb u v); [destruct A|auto].
  - destruct (Nat.eqb v w); inversion E; subst; auto. apply range_nodes in A. destruct A as [A|A]; auto. unfold h_cut in A. cbn [hd] in A.
    unfold nset in A. destruct (Nat.eqb u v); [destruct A|auto].
  - destruct (Nat.eqb_spec v w); inversion E; subst. split; auto. unfold h_cut in A. cbn [hd] in A. unfold nset in A.
    destruct (Nat.eqb_spec u w); [destruct A|]. destruct (Nat.eqb_spec u v); auto.
  - destruct (map_find ltk k (hd h v)); inversion E; subst; auto.
  - destruct (check_full _ _); inversion E; subst; auto. destruct (h_insert ltk v k x h) as [b h1] eqn:F. inversion E; subst.
    pose proof (insert_nodes h v k x u p) as X. rewrite F in X. auto.
  - destruct (map_find ltk k (hd h v)); inversion E; subst; auto. unfold h_cut in A. cbn [hd] in A. unfold nset in A.
    destruct (Nat.eqb_spec u v); auto. subst. left. eapply erase_in; eauto.
  - destruct (check_empty _); inversion E; subst; auto. destruct (hd h v) as [|q d] eqn:F; inversion E; subst. unfold h_cut in A. cbn [hd] in A.
    unfold nset in A. destruct (Nat.eqb_spec u v); auto. subst. rewrite F. left. right. auto.
  - destruct (_ <=? _); inversion E; subst; auto. apply range_nodes in A. auto.
  - destruct (_ <=? _); inversion E; subst; auto. destruct (Nat.eqb v w); inversion E; subst. apply range_nodes in A. auto.
  - inversion E; subst. unfold h_cut in A. cbn [hd] in A. unfold nset in A. destruct (Nat.eqb u v); [destruct A|auto].
Qed.

Lemma owners_ok : forall c h h' ev own, inv ltk h -> (forall v k a, In (k, a) (hd h v) -> own a = v) -> hdo c h = Ok (h', ev) ->
  forall v k a, In (k, a) (hd h' v) -> owners c h own a = v.
Proof.
  intros c h h' ev own I O E v k a A. pose proof (do_nodes c h h' ev v (k, a) E A) as D. cbn [snd] in D. unfold owners.
  assert (OLD : forall u, In (k, a) (hd h u) -> Nat.leb (hn h) a = false).
  { intros u X. apply Nat.leb_gt. apply (in_old ltk h I). eapply (in_live ltk h I); eauto. }
  assert (G : (In (k, a) (hd h v) \/ v = target c /\ (hn h <= a)%nat) -> (if Nat.leb (hn h) a then target c else own a) = v).
  { intros [X|[X Y]]; [rewrite (OLD v X); eauto|]. apply Nat.leb_le in Y. rewrite Y. auto. }
  destruct c; try (exact (G D)). destruct D as [N D]. destruct D as [[-> D]|(N1 & N2 & D)].
  - rewrite (OLD w D). assert (X : existsb (fun p => Nat.eqb (snd p) a) (hd h w) = true).
    { apply existsb_exists. exists (k, a). split; auto. cbn. apply Nat.eqb_refl. }
    rewrite X. auto.
  - rewrite (OLD v D). destruct (existsb (fun p => Nat.eqb (snd p) a) (hd h w)) eqn:X; [|eauto].
    apply existsb_exists in X. destruct X as ([j b] & X & Y). cbn in Y. apply Nat.eqb_eq in Y. subst b.
    destruct (in_one ltk h I v w k j a D X). contradiction.
Qed.

(** ** Neighbours *)

Lemma after_split : forall (x y : nodes) k a, NoDup (map snd (x ++ (k, a) :: y)) -> nodes_after a (x ++ (k, a) :: y) = y.
Proof.
  induction x as [|[j b] x]; intros y k a N; cbn [app nodes_after].
  - cbn [snd]. rewrite Nat.eqb_refl. auto.
  - cbn [snd]. inversion N; subst. destruct (Nat.eqb_spec b a); auto. subst. destruct H1. apply in_map_iff. exists (k, a). split; auto.
    apply in_or_app. right. left. auto.
Qed.

Lemma before_split : forall (x y : nodes) k a, NoDup (map snd (x ++ (k, a) :: y)) -> nodes_before a (x ++ (k, a) :: y) = rev x.
Proof.
  intros x y k a N. unfold nodes_before. rewrite rev_app_distr. cbn [rev]. rewrite <- app_assoc. apply (after_split _ _ k).
  apply NoDup_rev in N. rewrite <- map_rev, rev_app_distr in N. cbn [rev] in N. rewrite <- app_assoc in N. auto.
Qed.

Lemma entry_split : forall (l : nodes) k a, NoDup (map snd l) -> In (k, a) l -> exists r, filter (fun p => Nat.eqb (snd p) a) l = (k, a) :: r.
Proof.
  induction l as [|[j b] l]; intros k a N X; [destruct X|]. destruct X as [X|X]; cbn [filter snd].
  - inversion X; subst. rewrite Nat.eqb_refl. eauto.
  - inversion N; subst. destruct (Nat.eqb_spec b a); eauto. subst. destruct H1. apply in_map_iff. exists (k, a). auto.
Qed.

Lemma split_keys : forall s e P I v x k a y, istands ltk s e P I -> hd (ih s) v = x ++ (k, a) :: y ->
  enumerates ltk (map fst x) (both (has (e v)) (fun j => ltk j k = true)) /\
  enumerates ltk (map fst y) (both (has (e v)) (fun j => ltk k j = true)).
Proof.
  intros s e P I v x k a y S E. pose proof (st_view _ _ _ _ (it_refs _ _ _ _ _ S) v) as [L _].
  pose proof (listing_keys ltk _ _ L) as [L1 L2]. unfold view in L1, L2. rewrite look_keys, E, map_app in L1, L2. cbn [map fst] in L1, L2.
  apply (inc_app ltk) in L1. destruct L1 as (A & B & C). apply inc_cons in B; auto. destruct B as [B D].
  split; split; auto; intros j; unfold both.
  - specialize (L2 j). rewrite in_app_iff in L2. cbn [In] in L2. split.
    + intros X. split; [apply L2; auto|]. apply C; auto. left. auto.
    + intros [X Y]. apply L2 in X. destruct X as [X|[X|X]]; auto.
      * subst. rewrite (lt_irr ltk OK) in Y. discriminate.
      * rewrite (lt_asym ltk OK _ _ (D j X)) in Y. discriminate.
  - specialize (L2 j). rewrite in_app_iff in L2. cbn [In] in L2. split.
    + intros X. split; [apply L2; auto|auto].
    + intros [X Y]. apply L2 in X. destruct X as [X|[X|X]]; auto.
      * assert (Z : ltk j k = true) by (apply C; auto; left; auto). rewrite (lt_asym ltk OK _ _ Z) in Y. discriminate.
      * subst. rewrite (lt_irr ltk OK) in Y. discriminate.
Qed.

(** ** Statements *)

Definition cur_ok s (x : cur K) (o : option iter) : Prop :=
  match x with
  | Unset => o = None
  | At v k => exists a, o = Some (AtNode a) /\ In (k, a) (hd (ih s) v)
  | Past v => o = Some (AtEnd v (ig s v))
  | Dead => match o with
            | Some (AtNode a) => hl (ih s) a = false /\ (a < hn (ih s))%nat
            | Some (AtEnd v n) => (n < ig s v)%nat
            | None => False
            end
  end.

Lemma put_stands : forall s e P I I' i x t, istands ltk s e P I -> put I i x I' -> cur_ok s x (Some t) -> istands ltk (i_set i t s) e P I'.
Proof.
  intros s e P I I' i x t S [A B] C. constructor; cbn [i_set ih io ig ii]; try apply S.
  intros j. unfold nset. destruct (Nat.eqb_spec j i).
  - subst j. rewrite A. destruct x; exact C.
  - rewrite (B j) by auto. apply (it_cur _ _ _ _ _ S j).
Qed.

Lemma at_node : forall s e P I i v k, istands ltk s e P I -> I i = At v k ->
  exists a, i_at s i = Ok (AtNode a) /\ ii s i = Some (AtNode a) /\ In (k, a) (hd (ih s) v) /\ io s a = v.
Proof.
  intros s e P I i v k S E. pose proof (it_cur _ _ _ _ _ S i) as C. rewrite E in C. destruct C as (a & A & B). exists a.
  unfold i_at. rewrite A, (st_live _ _ _ _ (it_refs _ _ _ _ _ S) v k a B). split; auto. split; auto. split; auto.
  eapply it_own; eauto.
Qed.

Lemma at_past : forall s e P I i v, istands ltk s e P I -> I i = Past v -> i_at s i = Ok (AtEnd v (ig s v)).
Proof.
  intros s e P I i v S E. pose proof (it_cur _ _ _ _ _ S i) as C. rewrite E in C. unfold i_at. rewrite C, Nat.eqb_refl. auto.
Qed.

Lemma at_bad : forall s e P I i, istands ltk s e P I -> ~ usable (I i) -> i_at s i = UB BadDeref.
Proof.
  intros s e P I i S E. pose proof (it_cur _ _ _ _ _ S i) as C. unfold i_at. destruct (I i); cbn [usable] in E; try tauto.
  - rewrite C. auto.
  - destruct (ii s i) as [[a|v n]|]; [| |destruct C].
    + rewrite (proj1 C). auto.
    + destruct (Nat.eqb_spec n (ig s v)); auto. lia.
Qed.

Lemma usable_at : forall s e P I i, istands ltk s e P I -> usable (I i) ->
  exists t, i_at s i = Ok t /\ cur_ok s (I i) (Some t) /\ whose (I i) = Some (i_owner s t).
Proof.
  intros s e P I i S U. destruct (I i) as [|v k|v|] eqn:E; try destruct U.
  - destruct (at_node s e P I i v k S E) as (a & A & B & C & D). exists (AtNode a). split; auto. cbn. rewrite D. split; eauto.
  - exists (AtEnd v (ig s v)). split; [eapply at_past; eauto|]. cbn. auto.
Qed.

Lemma inv_of : forall s e P I, istands ltk s e P I -> inv ltk (ih s).
Proof. intros s e P I S. eapply stands_inv. apply S. Qed.

Lemma entry_ok : forall s e P I v k a, istands ltk s e P I -> In (k, a) (hd (ih s) v) -> i_entry s a = Ok (k, a).
Proof.
  intros s e P I v k a S A. unfold i_entry. rewrite (it_own _ _ _ _ _ S v k a A).
  destruct (entry_split (hd (ih s) v) k a) as [r R]; auto. { eapply nodup_nodes; eauto. eapply inv_of; eauto. } rewrite R. auto.
Qed.

Lemma first_stands : forall s e P I v (l : nodes) Q x, istands ltk s e P I -> (forall p, In p l -> In p (hd (ih s) v)) ->
  enumerates ltk (map fst l) (both (has (e v)) Q) -> first_of ltk e v Q x -> cur_ok s x (Some (i_first s v l)).
Proof.
  intros s e P I v l Q x S L E F. destruct F as [(k & F & ->)|[F ->]].
  - destruct l as [|[j a] l].
    + destruct F as [F _]. apply E in F. destruct F.
    + cbn [map fst] in E. pose proof (head_least ltk _ _ _ E) as H. assert (j = k) by (eapply (least_unique ltk OK); eauto). subst.
      cbn. exists a. split; auto. apply L. left. auto.
  - destruct l as [|[j a] l]; [cbn; auto|]. exfalso. apply (F j). apply E. left. auto.
Qed.

Lemma first_ex : forall e v Q (l : list K), enumerates ltk l (both (has (e v)) Q) -> exists x, @first_of K V ltk e v Q x.
Proof.
  intros e v Q l E. destruct l as [|k l].
  - exists (Past v). right. split; auto. intros k X. apply E in X. destruct X.
  - exists (At v k). left. exists k. split; auto. eapply head_least; eauto.
Qed.

Lemma all_keys : forall s e P I v, istands ltk s e P I -> enumerates ltk (map fst (hd (ih s) v)) (both (has (e v)) (fun _ => True)).
Proof.
  intros s e P I v S. pose proof (st_view _ _ _ _ (it_refs _ _ _ _ _ S) v) as [L _]. pose proof (listing_keys ltk _ _ L) as [L1 L2].
  unfold view in *. rewrite look_keys in *. split; auto. intros j. rewrite (L2 j). unfold both. tauto.
Qed.

Lemma last_stands : forall s v (l : nodes) Q j (A : forall p, In p l -> In p (hd (ih s) v)),
  enumerates ltk (map fst l) Q -> greatest ltk Q j -> exists p r, rev l = p :: r /\ fst p = j /\ cur_ok s (At v j) (Some (AtNode (snd p))).
Proof.
  intros s v l Q j A E G. destruct (rev l) as [|[k a] r] eqn:R.
  - apply (f_equal (@rev _)) in R. rewrite rev_involutive in R. subst. destruct G as [G _]. apply E in G. destruct G.
  - apply (f_equal (@rev _)) in R. rewrite rev_involutive in R. cbn [rev] in R. subst. rewrite map_app in E. cbn [map fst] in E.
    pose proof (last_greatest ltk _ _ _ E) as H. assert (k = j) by (eapply (greatest_unique ltk OK); eauto). subst.
    exists (j, a), r. split; auto. split; auto. cbn. exists a. split; auto. apply A. apply in_or_app. right. left. auto.
Qed.

Lemma look_entry : forall s e P I v p j x, istands ltk s e P I -> fst p = j -> cur_ok s (At v j) (Some (AtNode (snd p))) -> e v j = Some x ->
  look (hm (ih s)) p = (j, x).
Proof.
  intros s e P I v [j' a'] j x S <- (a & A & T3) E. cbn [fst snd] in *. injection A as <-.
  pose proof (find_stands ltk OK (ih s) e P v j' (it_refs _ _ _ _ _ S)) as F.
  rewrite (proj2 (node_in ltk OK (ih s) v j' a' (inv_of _ _ _ _ S)) T3) in F. cbn in F. unfold look. cbn [fst snd]. congruence.
Qed.

Lemma after_gone : forall c e, after ltk (V := V) c e (fun _ => Gone) (fun _ => Gone).
Proof. intros c e. destruct c; cbn [after]; intros r; auto. Qed.

Lemma past_mono : forall (c : mstmt K V) g v, (g v <= past c g v)%nat.
Proof.
  intros c g v. destruct c; cbn [past]; auto.
  - unfold nset. destruct (Nat.eqb_spec v v0); subst; auto.
  - destruct (Nat.eqb v0 w); auto. unfold nset. destruct (Nat.eqb_spec v v0); subst; auto.
  - destruct (_ || _); auto.
Qed.

Lemma past_same : forall (c : mstmt K V) g v, ~ end_lost c v -> past c g v = g v.
Proof.
  intros c g v N. destruct c; cbn [past end_lost] in *; auto.
  - unfold nset. destruct (Nat.eqb_spec v v0); subst; auto. destruct N. auto.
  - destruct (Nat.eqb_spec v0 w); auto. unfold nset. destruct (Nat.eqb_spec v v0); subst; auto. destruct N. auto.
  - destruct (Nat.eqb_spec v v0), (Nat.eqb_spec v w); subst; cbn; auto; destruct N; auto.
Qed.

Lemma past_lost : forall (c : mstmt K V) g v, end_lost c v -> (g v < past c g v)%nat.
Proof.
  intros c g v N. destruct c; cbn [past end_lost] in *; try tauto.
  - subst. unfold nset. rewrite Nat.eqb_refl. auto.
  - destruct N as [-> N]. destruct (Nat.eqb_spec v w); [contradiction|]. unfold nset. rewrite Nat.eqb_refl. auto.
  - destruct N as [->| ->]; rewrite Nat.eqb_refl, ?orb_true_r; cbn; auto.
Qed.

Lemma end_dec : forall (c : mstmt K V) v, end_lost c v \/ ~ end_lost c v.
Proof.
  intros c v. destruct c; cbn [end_lost]; try tauto.
  - destruct (Nat.eq_dec v0 v); tauto.
  - destruct (Nat.eq_dec v0 v), (Nat.eq_dec v0 w); tauto.
  - destruct (Nat.eq_dec v0 v), (Nat.eq_dec w v); tauto.
Qed.

(** A pointer value is carried along by a Dict statement, whatever variable it is in. *)
Lemma carried : forall c h e ms ev p q o h' , inv ltk h -> mstands ltk (view h) e -> ptr_ok h p o ->
  after ltk c e (fun _ => p) (fun _ => q) -> mstep ltk eqk ltv eqv showk showv c (view h) = Ok (ms, ev) -> hdo c h = Ok (h', ev) -> ptr_ok h' q o.
Proof.
  intros c h e ms ev p q o h' I S H A E D. pose (f := fun _ : nat => o).
  assert (I' : inv ltk (with_hr f h)) by (destruct I; constructor; auto).
  assert (H' : ptrs_ok (with_hr f h) (fun _ => p)) by (intros r; destruct p; exact H).
  destruct (do_match ltk eqk ltv eqv showk showv OK c (with_hr f h) e ms ev (fun _ => p) (fun _ => q) I' S H' A E) as (h2 & X & (_ & _ & G)).
  rewrite do_hr, D in X. cbn [lift_hr] in X. inversion X; subst. specialize (G 0%nat). cbn [with_hr hr] in G. destruct q; exact G.
Qed.

Lemma do_stands : forall c s e P I e' P' I' ev, istands ltk s e P I -> mint_stmt c -> fstep ltk ltv showk showv c e e' ev -> after ltk c e P P' ->
  iafter ltk c e I I' -> exists s', i_do ltk eqk ltv eqv showk showv (PDo c) s = Ok (s', ev) /\ istands ltk s' e' P' I'.
Proof.
  intros c s e P I e' P' I' ev S A F AP AI. pose proof (it_refs _ _ _ _ _ S) as HS. pose proof (stands_inv ltk _ _ _ HS) as HI.
  destruct (rcomplete ltk eqk ltv eqv showk showv OK OV DK DV (PDo c) (ih s) e P e' P' ev HS A) as (h' & D & HS'); [apply r_do; auto|].
  unfold i_do. rewrite D. eexists. split; [reflexivity|]. cbn [h_step] in D.
  destruct (fcomplete ltk eqk ltv eqv showk showv OK OV DK DV _ _ _ _ _ (st_view _ _ _ _ HS) A F) as (ms & ME & _).
  constructor; cbn [ih io ig ii]; auto.
  - eapply owners_ok; eauto. apply S.
  - intros i. specialize (AI i). pose proof (it_cur _ _ _ _ _ S i) as C. destruct (I i) as [|v k|v|] eqn:EI.
    + rewrite AI. auto.
    + destruct AI as (p & AI & ->). destruct C as (a & C1 & C2).
      assert (X : ptr_ok (ih s) (To v k) (Some a)) by (cbn; eauto).
      pose proof (carried c (ih s) e ms ev (To v k) p (Some a) h' HI (st_view _ _ _ _ HS) X AI ME D) as Y.
      destruct p as [|u j|]; cbn [ptr_ok] in Y.
      * discriminate.
      * destruct Y as (b & Y1 & Y2). exists b. split; auto. congruence.
      * destruct Y as (b & Y1 & Y2 & Y3). rewrite C1. inversion Y1; subst. auto.
    + destruct AI as [[AI ->]|[AI ->]]; rewrite C.
      * apply past_lost. auto.
      * rewrite past_same; auto.
    + rewrite AI. destruct (ii s i) as [[a|u n]|]; auto.
      * assert (X : ptr_ok (ih s) Gone (Some a)) by (cbn; eauto).
        pose proof (carried c (ih s) e ms ev Gone Gone (Some a) h' HI (st_view _ _ _ _ HS) X (after_gone c e) ME D) as Y.
        destruct Y as (b & Y1 & Y2 & Y3). inversion Y1; subst. auto.
      * pose proof (past_mono c (ig s) u). lia.
Qed.

Lemma ref_same : forall c h h' ev, (forall d, c <> PDo d) -> hstep c h = Ok (h', ev) -> hd h' = hd h /\ hl h' = hl h /\ (hn h <= hn h')%nat.
Proof.
  intros c h h' ev N E. destruct c; cbn [h_step] in E.
  - destruct (N c). auto.
  - destruct (map_find ltk k (hd h v)); inversion E; subst; auto.
  - inversion E; subst. cbn. auto.
  - destruct (h_at h q); cbn [bind] in E; inversion E; subst. cbn. auto.
  - inversion E; subst. auto.
  - destruct (h_at h r); cbn [bind] in E; inversion E; subst. auto.
  - destruct (h_at h r); cbn [bind] in E; inversion E; subst. auto.
Qed.

Lemma ref_stands : forall c s e P I e' P' ev, istands ltk s e P I -> (forall d, c <> PDo d) -> rstep ltk ltv showk showv c e P e' P' ev ->
  exists s', i_do ltk eqk ltv eqv showk showv c s = Ok (s', ev) /\ istands ltk s' e' P' I.
Proof.
  intros c s e P I e' P' ev S N R. assert (A : pint_stmt c) by (destruct c; cbn; auto; destruct (N c); auto).
  destruct (rcomplete ltk eqk ltv eqv showk showv OK OV DK DV c (ih s) e P e' P' ev (it_refs _ _ _ _ _ S) A R) as (h' & D & HS').
  exists (IState h' (io s) (ig s) (ii s)). split.
  - unfold i_do. rewrite D. destruct c; auto. destruct (N c). auto.
  - destruct (ref_same c _ _ _ N D) as (X & Y & Z). constructor; cbn [ih io ig ii]; auto.
    + intros v k a. rewrite X. apply S.
    + intros i. pose proof (it_cur _ _ _ _ _ S i) as C. rewrite X, Y. destruct (I i); auto. destruct (ii s i) as [[a|v n]|]; auto.
      split; [apply C|]. destruct C. lia.
Qed.

Lemma icomplete : forall c s e P I e' P' I' ev, istands ltk s e P I -> iint_stmt c -> spec c e P I e' P' I' ev ->
  exists s', istep c s = Ok (s', ev) /\ istands ltk s' e' P' I'.
Proof.
  intros c s e P I e' P' I' ev S A H. destruct H; cbn [i_step iint_stmt] in *.
  - eapply do_stands; eauto.
  - eapply ref_stands; eauto.
  - destruct (find_has ltk OK (ih s) e P v k (it_refs _ _ _ _ _ S) H) as (a & F & B). rewrite F. eexists. split; [reflexivity|].
    eapply put_stands; eauto. cbn. eauto.
  - rewrite (find_absent ltk OK (ih s) e P v k (it_refs _ _ _ _ _ S) H). eexists. split; [reflexivity|]. eapply put_stands; eauto. reflexivity.
  - eexists. split; [reflexivity|]. eapply put_stands; eauto. eapply first_stands; eauto. eapply all_keys; eauto.
  - eexists. split; [reflexivity|]. eapply put_stands; eauto. reflexivity.
  - destruct (usable_at s e P I j S H) as (t & T1 & T2 & _). rewrite T1. cbn [bind]. eexists. split; [reflexivity|]. eapply put_stands; eauto.
  - destruct (at_node s e P I i v k S H) as (a & T1 & _ & T3 & T4). rewrite T1. cbn [bind]. eexists. split; [reflexivity|].
    rewrite T4. eapply put_stands; eauto. destruct (in_split _ _ T3) as (y & z & E).
    assert (N : NoDup (map snd (hd (ih s) v))) by (eapply nodup_nodes; eauto; eapply inv_of; eauto). rewrite E in N |- *.
    rewrite after_split by auto. destruct (split_keys _ _ _ _ _ _ _ _ _ S E) as [_ X]. eapply first_stands; eauto.
    intros p Z. rewrite E. apply in_or_app. right. right. auto.
  - destruct (at_node s e P I i v k S H) as (a & T1 & _ & T3 & T4). rewrite T1. cbn [bind]. rewrite T4.
    destruct (in_split _ _ T3) as (y & z & E).
    assert (N : NoDup (map snd (hd (ih s) v))) by (eapply nodup_nodes; eauto; eapply inv_of; eauto). rewrite E in N |- *.
    rewrite before_split by auto. destruct (split_keys _ _ _ _ _ _ _ _ _ S E) as [X _].
    assert (YS : forall p, In p y -> In p (hd (ih s) v)) by (intros p Z; rewrite E; apply in_or_app; auto).
    destruct (last_stands s v y _ j YS X H0) as (p & r & R1 & R2 & R3).
    rewrite R1. eexists. split; [reflexivity|]. eapply put_stands; eauto.
  - rewrite (at_past s e P I i v S H). cbn [bind]. pose proof (st_view _ _ _ _ (it_refs _ _ _ _ _ S) v) as [L _].
    pose proof (listing_keys ltk _ _ L) as X. unfold view in X. rewrite look_keys in X.
    destruct (last_stands s v (hd (ih s) v) _ j (fun p Z => Z) X H0) as (p & r & R1 & R2 & R3).
    rewrite R1. eexists. split; [reflexivity|]. eapply put_stands; eauto.
  - destruct (at_node s e P I i v k S H) as (a & T1 & _ & T3 & T4). rewrite T1. cbn [bind].
    rewrite (entry_ok _ _ _ _ _ _ _ S T3). cbn [bind]. exists s. split; auto.
    pose proof (find_stands ltk OK (ih s) e P v k (it_refs _ _ _ _ _ S)) as F.
    rewrite (proj2 (node_in ltk OK (ih s) v k a (inv_of _ _ _ _ S)) T3) in F. cbn in F. unfold look. cbn [fst snd]. congruence.
  - destruct (at_node s e P I i v k S H) as (a & T1 & _ & T3 & T4). rewrite T1. cbn [bind]. rewrite T4.
    destruct (in_split _ _ T3) as (y & z & E).
    assert (N : NoDup (map snd (hd (ih s) v))) by (eapply nodup_nodes; eauto; eapply inv_of; eauto). rewrite E in N |- *.
    rewrite before_split by auto. destruct (split_keys _ _ _ _ _ _ _ _ _ S E) as [X _].
    assert (YS : forall p, In p y -> In p (hd (ih s) v)) by (intros p Z; rewrite E; apply in_or_app; auto).
    destruct (last_stands s v y _ j YS X H0) as (p & r & R1 & R2 & R3).
    rewrite R1, (look_entry s e P I v p j x S); auto. eauto.
  - rewrite (at_past s e P I i v S H). cbn [bind]. pose proof (st_view _ _ _ _ (it_refs _ _ _ _ _ S) v) as [L _].
    pose proof (listing_keys ltk _ _ L) as X. unfold view in X. rewrite look_keys in X.
    destruct (last_stands s v (hd (ih s) v) _ j (fun p Z => Z) X H0) as (p & r & R1 & R2 & R3).
    rewrite R1, (look_entry s e P I v p j x S); auto. eauto.
  - assert (U1 : usable (I i)) by (destruct (I i); cbn in *; auto; discriminate).
    assert (U2 : usable (I j)) by (destruct (I j); cbn in *; auto; discriminate).
    destruct (usable_at s e P I i S U1) as (t & T1 & T2 & T3). destruct (usable_at s e P I j S U2) as (u & R1 & R2 & R3).
    rewrite T1. cbn [bind]. rewrite R1. cbn [bind].
    assert (EO : i_owner s t = v) by congruence. assert (EO' : i_owner s u = v) by congruence. rewrite EO, EO', Nat.eqb_refl.
    exists s. split; auto. f_equal. f_equal. f_equal. f_equal. unfold tells in H1.
    destruct (I i) as [|v1 k1|v1|], (I j) as [|v2 k2|v2|]; try (destruct U1; fail); try (destruct U2; fail); cbn [cur_ok whose] in *.
    + destruct T2 as (a1 & X1 & Y1), R2 as (a2 & X2 & Y2). inversion X1; subst t. inversion X2; subst u.
      assert (Q1 : v1 = v) by congruence. assert (Q2 : v2 = v) by congruence. rewrite Q1 in *. rewrite Q2 in *. apply eq_true_iff_eq. rewrite H1, Nat.eqb_eq. split.
      * intros ->. destruct (in_one ltk _ (inv_of _ _ _ _ S) v v k1 k2 a2 Y1 Y2). congruence.
      * intros X. assert (Q3 : k1 = k2) by congruence. rewrite Q3 in *. apply (keys_unique ltk OK (hd (ih s) v) k2); auto. apply (inv_of _ _ _ _ S).
    + destruct T2 as (a1 & X1 & Y1). inversion X1; subst t. inversion R2; subst u. destruct b; auto. destruct H1 as [H1 _]. specialize (H1 eq_refl). discriminate.
    + destruct R2 as (a2 & X2 & Y2). inversion X2; subst u. inversion T2; subst t. destruct b; auto. destruct H1 as [H1 _]. specialize (H1 eq_refl). discriminate.
    + inversion T2; subst t. inversion R2; subst u. symmetry. apply H1. congruence.
  - destruct (at_node s e P I i v k S H) as (a & T1 & _ & T3 & T4). rewrite T1. cbn [bind]. eexists. split; [reflexivity|].
    constructor; cbn [ih io ig ii h_bind hd hl hn]; try apply S. eapply bind_stands; eauto; [apply S|]. cbn. eauto.
  - destruct (at_node s e P I i u k S H) as (a & T1 & _ & T3 & T4). rewrite T1. cbn [bind]. rewrite (entry_ok _ _ _ _ _ _ _ S T3). cbn [bind fst].
    inversion H0; subst.
    + eapply do_stands; eauto.
    + destruct (H2 (MRemove v k)). auto.
Qed.

(** ** A statement runs as on finite maps, or is undefined *)

Lemma iafter_ex : forall c s e P I, istands ltk s e P I -> exists I', iafter ltk c e I I'.
Proof.
  intros c s e P I S.
  pose (PP := fun i => match I i with At v k => To v k | _ => Null end).
  destruct (after_ex ltk eqk showk OK DK c (ih s) e PP (st_view _ _ _ _ (it_refs _ _ _ _ _ S))) as (QQ & Q).
  assert (AT : forall i v k, I i = At v k -> after ltk c e (fun _ => To v k) (fun _ => QQ i)).
  { intros i v k E. assert (X : PP i = To v k) by (unfold PP; rewrite E; auto).
    destruct c; cbn [after] in Q |- *; intros r; specialize (Q i); rewrite X in Q; exact Q. }
  pose (gone := fun v => match c with MInit u _ => Nat.eqb u v | MCopy u w => Nat.eqb u v && negb (Nat.eqb u w) | MMove u w => Nat.eqb u v || Nat.eqb w v | _ => false end).
  assert (GO : forall v, gone v = true <-> end_lost c v).
  { intros v. unfold gone. destruct c; cbn [end_lost]; try (split; [discriminate|tauto]).
    - apply Nat.eqb_eq.
    - rewrite andb_true_iff, negb_true_iff, Nat.eqb_eq, Nat.eqb_neq. tauto.
    - rewrite orb_true_iff, !Nat.eqb_eq. tauto. }
  exists (fun i => match I i with
    | At v k => match QQ i with To u j => At u j | _ => Dead end
    | Past v => if gone v then Dead else Past v
    | x => x end).
  intros i. destruct (I i) as [|v k|v|] eqn:E; auto.
  - exists (QQ i). split; auto.
  - destruct (gone v) eqn:G; [left|right]; split; auto; [apply GO; auto|]. intros X. apply GO in X. congruence.
Qed.

Lemma put_ex : forall (I : nat -> cur K) i x, exists I', put I i x I'.
Proof.
  intros I i x. exists (nset I i x). unfold put, nset. rewrite Nat.eqb_refl. split; auto. intros j N. destruct (Nat.eqb_spec j i); [contradiction|auto].
Qed.

Lemma usable_dec : forall (I : nat -> cur K) i, (exists v k, I i = At v k) \/ (exists v, I i = Past v) \/ ~ usable (I i).
Proof. intros I i. destruct (I i); cbn; eauto; tauto. Qed.

Lemma greatest_enum : forall (l : list K) Q, enumerates ltk l Q -> l <> [] -> exists j, greatest ltk Q j.
Proof.
  intros l Q E N. destruct (rev l) as [|j r] eqn:R.
  - apply (f_equal (@rev _)) in R. rewrite rev_involutive in R. contradiction.
  - apply (f_equal (@rev _)) in R. rewrite rev_involutive in R. cbn [rev] in R. subst. exists j. eapply last_greatest; eauto.
Qed.

Lemma ref_dec : forall c : pstmt K V, (exists d, c = PDo d) \/ forall d, c <> PDo d.
Proof. intros []; eauto; right; discriminate. Qed.

Lemma remove_ex : forall v k s e P I, istands ltk s e P I -> exists e' P' I' ev, spec (IDo (PDo (MRemove v k))) e P I e' P' I' ev.
Proof.
  intros v k s e P I S. destruct (ftotal ltk eqk ltv eqv showk showv OK OV DK DV (MRemove v k) _ _ (st_view _ _ _ _ (it_refs _ _ _ _ _ S))) as [(e' & ev & F)|R].
  - destruct (after_ex ltk eqk showk OK DK (MRemove v k) (ih s) e P (st_view _ _ _ _ (it_refs _ _ _ _ _ S))) as (P' & Q).
    destruct (iafter_ex (MRemove v k) s e P I S) as (I' & QI). exists e', P', I', ev. apply s_do; auto.
  - exfalso. destruct R as [(u & R)|[(u & R)|(u & _ & [R|R])]]; discriminate.
Qed.

Lemma itotal : forall c s e P I, istands ltk s e P I -> iint_stmt c ->
  (exists e' P' I' ev, spec c e P I e' P' I' ev) \/ (exists u, istep c s = UB u).
Proof.
  intros c s e P I S A. pose proof (it_refs _ _ _ _ _ S) as HS. destruct c; cbn [i_step iint_stmt] in *.
  - destruct (step_cases ltk eqk ltv eqv showk showv OK OV DK DV c (ih s) e P HS A) as [(h' & e' & P' & ev & _ & R & _)|[[u U] _]].
    + left. destruct (ref_dec c) as [[d ->]|N].
      * inversion R; subst. destruct (iafter_ex d s e P I S) as (I' & QI). exists e', P', I', ev. apply s_do; auto.
      * exists e', P', I, ev. apply s_ref; auto.
    + right. exists u. unfold i_do. rewrite U. auto.
  - left. destruct (has_dec (e v) k); [destruct (put_ex I i (At v k)) as [I' Q]|destruct (put_ex I i (Past v)) as [I' Q]].
    + do 4 eexists. eapply s_find; eauto.
    + do 4 eexists. eapply s_find_absent; eauto.
  - left. destruct (first_ex e v _ _ (all_keys s e P I v S)) as [x X]. destruct (put_ex I i x) as [I' Q]. do 4 eexists. eapply s_begin; eauto.
  - left. destruct (put_ex I i (Past v)) as [I' Q]. do 4 eexists. eapply s_end; eauto.
  - destruct (usable_dec I j) as [(v & k & E)|[(v & E)|E]].
    + left. destruct (put_ex I i (I j)) as [I' Q]. do 4 eexists. eapply s_copy; eauto. rewrite E. exact Logic.I.
    + left. destruct (put_ex I i (I j)) as [I' Q]. do 4 eexists. eapply s_copy; eauto. rewrite E. exact Logic.I.
    + right. rewrite (at_bad s e P I j S E). cbn. eauto.
  - destruct (usable_dec I i) as [(v & k & E)|[(v & E)|E]].
    + left. destruct (at_node s e P I i v k S E) as (a & _ & _ & T3 & _). destruct (in_split _ _ T3) as (y & z & F).
      destruct (split_keys _ _ _ _ _ _ _ _ _ S F) as [_ X]. destruct (first_ex e v _ _ X) as [x FX]. destruct (put_ex I i x) as [I' Q].
      do 4 eexists. eapply s_next; eauto.
    + right. rewrite (at_past s e P I i v S E). cbn. eauto.
    + right. rewrite (at_bad s e P I i S E). cbn. eauto.
  - destruct (usable_dec I i) as [(v & k & E)|[(v & E)|E]].
    + destruct (at_node s e P I i v k S E) as (a & T1 & _ & T3 & T4). destruct (in_split _ _ T3) as (y & z & F).
      destruct (split_keys _ _ _ _ _ _ _ _ _ S F) as [X _]. destruct y as [|q y].
      * right. rewrite T1. cbn [bind]. rewrite T4.
        assert (N : NoDup (map snd (hd (ih s) v))) by (eapply nodup_nodes; eauto; eapply inv_of; eauto). rewrite F in N |- *.
        rewrite before_split by auto. cbn. eauto.
      * left. destruct (greatest_enum _ _ X) as [j G]; [discriminate|]. destruct (put_ex I i (At v j)) as [I' Q]. do 4 eexists. eapply s_prev; eauto.
    + rewrite (at_past s e P I i v S E). cbn [bind]. destruct (hd (ih s) v) as [|q y] eqn:F.
      * right. cbn. eauto.
      * left. pose proof (st_view _ _ _ _ HS v) as [L _]. pose proof (listing_keys ltk _ _ L) as X. unfold view in X. rewrite look_keys, F in X.
        destruct (greatest_enum _ _ X) as [j G]; [discriminate|]. destruct (put_ex I i (At v j)) as [I' Q]. do 4 eexists. eapply s_prev_end; eauto.
    + right. rewrite (at_bad s e P I i S E). cbn. eauto.
  - destruct (usable_dec I i) as [(v & k & E)|[(v & E)|E]].
    + left. destruct (at_node s e P I i v k S E) as (a & _ & _ & T3 & _).
      pose proof (find_stands ltk OK (ih s) e P v k HS) as F. rewrite (proj2 (node_in ltk OK (ih s) v k a (inv_of _ _ _ _ S)) T3) in F.
      do 4 eexists. eapply s_pair; eauto.
    + right. rewrite (at_past s e P I i v S E). cbn. eauto.
    + right. rewrite (at_bad s e P I i S E). cbn. eauto.
  - destruct (usable_dec I i) as [(v & k & E)|[(v & E)|E]].
    + destruct (at_node s e P I i v k S E) as (a & T1 & _ & T3 & T4). destruct (in_split _ _ T3) as (y & z & F).
      destruct (split_keys _ _ _ _ _ _ _ _ _ S F) as [X _]. destruct y as [|q y].
      * right. rewrite T1. cbn [bind]. rewrite T4.
        assert (N : NoDup (map snd (hd (ih s) v))) by (eapply nodup_nodes; eauto; eapply inv_of; eauto). rewrite F in N |- *.
        rewrite before_split by auto. cbn. eauto.
      * left. destruct (greatest_enum _ _ X) as [j G]; [discriminate|]. pose proof (proj1 (proj1 G)) as (x & Ex). do 4 eexists. eapply s_back; eauto.
    + rewrite (at_past s e P I i v S E). cbn [bind]. destruct (hd (ih s) v) as [|q y] eqn:F.
      * right. cbn. eauto.
      * left. pose proof (st_view _ _ _ _ HS v) as [L _]. pose proof (listing_keys ltk _ _ L) as X. unfold view in X. rewrite look_keys, F in X.
        destruct (greatest_enum _ _ X) as [j G]; [discriminate|]. pose proof (proj1 G) as (x & Ex). do 4 eexists. eapply s_back_end; eauto.
    + right. rewrite (at_bad s e P I i S E). cbn. eauto.
  - assert (D : usable (I i) \/ ~ usable (I i)) by (destruct (I i); cbn; tauto).
    assert (D' : usable (I j) \/ ~ usable (I j)) by (destruct (I j); cbn; tauto).
    destruct D as [D|D]; [|right; rewrite (at_bad s e P I i S D); cbn; eauto].
    destruct (usable_at s e P I i S D) as (t & T1 & T2 & T3). rewrite T1. cbn [bind].
    destruct D' as [D'|D']; [|right; rewrite (at_bad s e P I j S D'); cbn; eauto].
    destruct (usable_at s e P I j S D') as (u & R1 & R2 & R3). rewrite R1. cbn [bind].
    destruct (Nat.eqb_spec (i_owner s t) (i_owner s u)) as [EO|NO]; [|right; eauto].
    left. rewrite <- EO in R3.
    assert (X : exists b, tells b (I i = I j)).
    { unfold tells. destruct (I i) as [|v1 k1|v1|], (I j) as [|v2 k2|v2|]; try (destruct D; fail); try (destruct D'; fail); cbn [whose] in *.
      - inversion T3; inversion R3. exists (eqk k1 k2). rewrite (DK k1 k2). split; congruence.
      - exists false. split; discriminate.
      - exists false. split; discriminate.
      - exists true. split; auto. congruence. }
    destruct X as [b X]. do 4 eexists. eapply s_same; eauto.
  - destruct (usable_dec I i) as [(v & k & E)|[(v & E)|E]].
    + left. destruct (points_ex P r (To v k)) as [P' Q]. do 4 eexists. eapply s_ptr; eauto.
    + right. rewrite (at_past s e P I i v S E). cbn. eauto.
    + right. rewrite (at_bad s e P I i S E). cbn. eauto.
  - destruct (usable_dec I i) as [(u & k & E)|[(u & E)|E]].
    + left. destruct (remove_ex v k s e P I S) as (e' & P' & I' & ev & R). do 4 eexists. eapply s_remove; eauto.
    + right. rewrite (at_past s e P I i u S E). cbn. eauto.
    + right. rewrite (at_bad s e P I i S E). cbn. eauto.
Qed.

Theorem i_step_ub : forall c s e P I, istands ltk s e P I -> iint_stmt c ->
  ((exists u, istep c s = UB u) <-> ~ exists e' P' I' ev, spec c e P I e' P' I' ev).
Proof.
  intros c s e P I S A. split.
  - intros [u U] (e' & P' & I' & ev & R). destruct (icomplete c s e P I e' P' I' ev S A R) as (s' & X & _). congruence.
  - intros N. destruct (itotal c s e P I S A) as [R|U]; auto. destruct N. auto.
Qed.

Theorem irun_complete : forall prog s e P I e' P' I' ev, istands ltk s e P I -> Forall iint_stmt prog ->
  irun_spec ltk ltv showk showv prog e P I e' P' I' ev -> exists s', irun prog s = Ok (s', ev) /\ istands ltk s' e' P' I'.
Proof.
  induction prog as [|c prog]; intros s e P I e' P' I' ev S A H;
    inversion H as [|c0 r0 e0 P0 I0 e1 P1 I1 e2 P2 I2 ev1 ev2 X Y]; subst; cbn [i_run].
  - eauto.
  - inversion A as [|c0 p0 A1 A2]; subst. destruct (icomplete _ _ _ _ _ _ _ _ _ S A1 X) as (s1 & E & S1). rewrite E. cbn [bind fst snd].
    destruct (IHprog _ _ _ _ _ _ _ _ S1 A2 Y) as (s2 & F & S2). rewrite F. cbn [bind fst snd]. eauto.
Qed.

Theorem i_run_cases : forall prog s e P I, istands ltk s e P I -> Forall iint_stmt prog ->
  (exists s' e' P' I' ev, irun prog s = Ok (s', ev) /\ irun_spec ltk ltv showk showv prog e P I e' P' I' ev /\ istands ltk s' e' P' I') \/
  (exists u, irun prog s = UB u).
Proof.
  induction prog as [|c prog]; intros s e P I S A; cbn [i_run].
  - left. exists s, e, P, I, []. split; auto. split; [constructor|auto].
  - inversion A as [|c0 p0 A1 A2]; subst. destruct (itotal c s e P I S A1) as [(e1 & P1 & I1 & ev1 & Y)|[u U]].
    + destruct (icomplete _ _ _ _ _ _ _ _ _ S A1 Y) as (s1 & X & Z).
      rewrite X. cbn [bind fst snd]. destruct (IHprog s1 e1 P1 I1 Z A2) as [(s2 & e2 & P2 & I2 & ev2 & X2 & Y2 & Z2)|[u U]].
      * rewrite X2. cbn [bind fst snd]. left. exists s2, e2, P2, I2, (ev1 ++ ev2). split; auto. split; auto. econstructor; eauto.
      * rewrite U. cbn [bind]. right. eauto.
    + rewrite U. cbn [bind]. right. eauto.
Qed.

Theorem i_run_refines : forall prog s e P I s' ev, istands ltk s e P I -> Forall iint_stmt prog -> irun prog s = Ok (s', ev) ->
  exists e' P' I', irun_spec ltk ltv showk showv prog e P I e' P' I' ev /\ istands ltk s' e' P' I'.
Proof.
  intros prog s e P I s' ev S A E. destruct (i_run_cases prog s e P I S A) as [(s2 & e2 & P2 & I2 & ev2 & X & Y & Z)|[u U]]; [|congruence].
  assert (s2 = s' /\ ev2 = ev) as [-> ->] by (split; congruence). eauto.
Qed.

(** ** Loops *)

Lemma enum_split : forall x k y Q, enumerates ltk (x ++ k :: y) Q -> enumerates ltk y (both Q (fun j => ltk k j = true)).
Proof.
  intros x k y Q [A B]. apply (inc_app ltk) in A. destruct A as (A1 & A2 & A3). apply inc_cons in A2; auto. destruct A2 as [A2 A4].
  split; auto. intros j. specialize (B j). rewrite in_app_iff in B. cbn [In] in B. unfold both. split.
  - intros X. split; [apply B; auto|auto].
  - intros [X Y]. apply B in X. destruct X as [X|[X|X]]; auto.
    + assert (Z : ltk j k = true) by (apply A3; auto; left; auto). rewrite (lt_asym ltk OK _ _ Z) in Y. discriminate.
    + subst. rewrite (lt_irr ltk OK) in Y. discriminate.
Qed.

Definition head_cur (v : nat) (y : list (K * V)) : cur K := match y with [] => Past v | p :: _ => At v (fst p) end.

Lemma head_first : forall (e : @fstore K V) v Q y, enumerates ltk (map fst y) (both (has (e v)) Q) -> first_of ltk e v Q (head_cur v y).
Proof.
  intros e v Q y E. destruct y as [|[k x] y]; cbn [head_cur map fst] in *.
  - right. split; auto. intros k X. apply E in X. destruct X.
  - left. exists k. split; auto. eapply head_least; eauto.
Qed.

Lemma step_irun : forall c rest s s' ev, istep c s = Ok (s', ev) ->
  irun (c :: rest) s = (he <- irun rest s' ;; Ok (fst he, ev ++ snd he)).
Proof. intros c rest s s' ev X. cbn [i_run]. rewrite X. reflexivity. Qed.

Lemma walk_from : forall i v y x s e P I, istands ltk s e P I -> listing ltk (x ++ y) (e v) -> I i = head_cur v y ->
  exists s' I', i_loop ltk eqk ltv eqv showk showv (S (length y)) i v [IPair i; INext i] s = Ok (s', map MPair y) /\ istands ltk s' e P I' /\ put I i (Past v) I'.
Proof.
  induction y as [|[k z] y]; intros x s e P I S L E; cbn [head_cur fst] in E.
  - exists s, I. cbn [length i_loop]. rewrite (at_past s e P I i v S E). cbn [bind i_owner]. rewrite Nat.eqb_refl. split; auto. split; auto. split; auto.
  - destruct (at_node s e P I i v k S E) as (a & T1 & _ & T3 & T4).
    assert (EK : e v k = Some z). { apply L. apply in_or_app. right. left. auto. }
    pose proof (listing_keys ltk _ _ L) as LK. rewrite map_app in LK. cbn [map fst] in LK. apply enum_split in LK.
    destruct (put_ex I i (head_cur v y)) as [I1 Q1].
    destruct (irun_complete [IPair i; INext i] s e P I e P I1 ([MPair (k, z)] ++ [] ++ [])) as (s1 & R1 & S1).
    { auto. } { repeat constructor. }
    { econstructor; [eapply s_pair; eauto|]. econstructor; [|constructor]. eapply s_next; eauto. apply head_first. auto. }
    destruct (IHy (x ++ [(k, z)]) s1 e P I1 S1) as (s2 & I2 & R2 & S2 & Q2); [rewrite <- app_assoc; auto|apply Q1|].
    exists s2, I2. split; [|split; auto].
    + change (length ((k, z) :: y)) with (Datatypes.S (length y)). remember (Datatypes.S (length y)) as n. cbn [i_loop]. rewrite T1. cbn [bind i_owner]. rewrite T4, Nat.eqb_refl, R1. cbn [bind fst snd]. rewrite R2. reflexivity.
    + destruct Q1 as [_ Q1], Q2 as [Q2 Q3]. split; auto. intros j N. rewrite Q3, Q1; auto.
Qed.

Theorem walk_ok : forall s e P I i v l, istands ltk s e P I -> listing ltk l (e v) ->
  exists s' I', (se <- irun [IBegin i v] s ;; i_loop ltk eqk ltv eqv showk showv (S (length l)) i v [IPair i; INext i] (fst se)) = Ok (s', map MPair l) /\
    istands ltk s' e P I' /\ put I i (Past v) I'.
Proof.
  intros s e P I i v l S L. destruct (put_ex I i (head_cur v l)) as [I1 Q1].
  destruct (irun_complete [IBegin i v] s e P I e P I1 ([] ++ [])) as (s1 & R1 & S1).
  { auto. } { repeat constructor. }
  { econstructor; [|constructor]. eapply s_begin; [|exact Q1]. apply head_first. pose proof (listing_keys ltk _ _ L) as [X Y].
    split; auto. intros j. rewrite (Y j). unfold both. tauto. }
  destruct (walk_from i v l [] s1 e P I1 S1 L (proj1 Q1)) as (s2 & I2 & R2 & S2 & Q2). exists s2, I2.
  rewrite R1. cbn [bind fst]. split; auto. split; auto. destruct Q1 as [_ Q1], Q2 as [Q2 Q3]. split; auto. intros j N. rewrite Q3, Q1; auto.
Qed.

(** From the end back to the begin. *)
Lemma enum_front : forall (Q : K -> Prop) d x r, enumerates ltk (d ++ x :: r) Q -> enumerates ltk d (both Q (fun y => ltk y x = true)).
Proof.
  intros Q d x r (I & E). apply (inc_app ltk) in I. destruct I as (A & B & C). apply inc_cons in B; auto. destruct B as (B & F). split; auto.
  intros y. unfold both. rewrite <- E, in_app_iff. cbn [In]. split.
  - intros X. split; auto. apply C; auto. left. auto.
  - intros ([X|[X|X]] & Y); auto.
    + subst. rewrite (lt_irr ltk OK) in Y. discriminate.
    + rewrite (lt_asym ltk OK x y) in Y; [discriminate|auto].
Qed.

Lemma walk_back_from : forall i j v l x y s e P I fuel, i <> j -> istands ltk s e P I -> listing ltk l (e v) -> l = x ++ y -> I i = head_cur v y -> I j = head_cur v l ->
  (length x < fuel)%nat ->
  exists s' I', i_while ltk eqk ltv eqv showk showv fuel i j [IBack i; IPrev i] s = Ok (s', map MPair (rev x)) /\ istands ltk s' e P I' /\
    put I i (head_cur v l) I'.
Proof.
  intros i j v l x. induction x as [|[k z] x IH] using rev_ind; intros y s e P I fuel N S L El Ei Ej F.
  - cbn [app] in El. subst y. destruct fuel as [|fuel]; [cbn [length] in F; lia|]. cbn [i_while].
    assert (U : usable (I i)) by (rewrite Ei; destruct l as [|[]]; exact Logic.I).
    destruct (usable_at s e P I i S U) as (t & T1 & T2 & T3). rewrite T1. cbn [bind].
    assert (U' : usable (I j)) by (rewrite Ej; destruct l as [|[]]; exact Logic.I).
    destruct (usable_at s e P I j S U') as (u & R1 & R2 & R3). rewrite R1. cbn [bind].
    rewrite Ei in T2, T3. rewrite Ej in R2, R3. replace (i_owner s u) with (i_owner s t) by congruence. rewrite Nat.eqb_refl.
    exists s, I. split; [|split; [auto|split; auto]].
    destruct l as [|[k z] l]; cbn [head_cur cur_ok fst] in *.
    + injection T2 as ->. injection R2 as ->. reflexivity.
    + destruct T2 as (a & A1 & A2), R2 as (b & B1 & B2). injection A1 as ->. injection B1 as ->.
      rewrite (keys_unique ltk OK (hd (ih s) v) k a b); auto; [|apply (inv_of _ _ _ _ S)]. rewrite Nat.eqb_refl. reflexivity.
  - rewrite app_length in F. cbn [length] in F. destruct fuel as [|fuel]; [lia|]. rewrite <- app_assoc in El. cbn [app] in El.
    assert (EK : e v k = Some z). { apply L. rewrite El. apply in_or_app. right. left. auto. }
    pose proof (listing_keys ltk _ _ L) as LK.
    (* the entry in front *)
    assert (exists I1, put I i (At v k) I1 /\ spec (IBack i) e P I e P I [MPair (k, z)] /\ spec (IPrev i) e P I e P I1 []) as (I1 & Q1 & B & PV).
    { destruct (put_ex I i (At v k)) as [I1 Q1]. exists I1. split; auto.
      destruct y as [|[k' z'] y]; cbn [head_cur fst] in Ei.
      - assert (G : greatest ltk (has (e v)) k).
        { rewrite El, map_app in LK. cbn [map fst] in LK. eapply last_greatest; eauto. }
        split; [eapply s_back_end; eauto|eapply s_prev_end; eauto].
      - assert (G : greatest ltk (both (has (e v)) (fun j => ltk j k' = true)) k).
        { assert (LK2 : enumerates ltk (map fst (x ++ [(k, z)]) ++ k' :: map fst y) (has (e v))).
          { replace (map fst (x ++ [(k, z)]) ++ k' :: map fst y) with (map fst l); auto. rewrite El, !map_app. cbn [map fst]. rewrite <- app_assoc. auto. }
          apply enum_front in LK2. rewrite map_app in LK2. cbn [map fst] in LK2. eapply last_greatest; eauto. }
        split; [eapply s_back; eauto|eapply s_prev; eauto]. }
    destruct (irun_complete [IBack i; IPrev i] s e P I e P I1 ([MPair (k, z)] ++ [] ++ [])) as (s1 & R1 & S1).
    { auto. } { repeat constructor. }
    { econstructor; [eauto|]. econstructor; [eauto|constructor]. }
    destruct (IH ((k, z) :: y) s1 e P I1 fuel N S1 L) as (s2 & I2 & R2 & S2 & Q2); auto; [apply Q1|destruct Q1 as [_ Q1]; rewrite Q1; auto|lia|].
    exists s2, I2. split; [|split; auto].
    + cbn [i_while].
      assert (U : usable (I i)) by (rewrite Ei; destruct y as [|[]]; exact Logic.I).
      destruct (usable_at s e P I i S U) as (t & T1 & T2 & T3). rewrite T1. cbn [bind].
      assert (U' : usable (I j)) by (rewrite Ej; destruct l as [|[]]; exact Logic.I).
      destruct (usable_at s e P I j S U') as (u & V1 & V2 & V3). rewrite V1. cbn [bind].
      assert (W : whose (I i) = Some v) by (rewrite Ei; destruct y as [|[]]; auto). assert (W' : whose (I j) = Some v) by (rewrite Ej; destruct l as [|[]]; auto).
      replace (i_owner s u) with (i_owner s t) by congruence. rewrite Nat.eqb_refl.
      match goal with |- (if ?b then _ else _) = _ => replace b with false end.
      * rewrite R1. cbn [bind fst snd]. rewrite R2. cbn [bind fst snd]. rewrite rev_app_distr. reflexivity.
      * symmetry. destruct (x ++ (k, z) :: y) as [|[k0 z0] l0] eqn:EQ; [destruct x; discriminate|]. subst l. cbn [head_cur fst] in Ej.
        rewrite Ei in T2. rewrite Ej in V2. cbn [cur_ok] in V2. destruct V2 as (b & B1 & B2). injection B1 as ->.
        destruct y as [|[k' z'] y]; cbn [head_cur cur_ok fst] in T2; [injection T2 as ->; auto|]. destruct T2 as (a & A1 & A2). injection A1 as ->.
        apply Nat.eqb_neq. intros ->. destruct (in_one ltk _ (inv_of _ _ _ _ S) v v k' k0 b A2 B2) as (_ & X). subst k'.
        (* k0 is both the first and a later key *)
        assert (ND : NoDup (map fst ((k0, z0) :: l0))) by (apply (inc_nodup ltk OK); apply LK).
        rewrite <- EQ in ND. destruct x as [|[k1 z1] x]; cbn [app] in EQ; injection EQ as Ek Ez El0; subst; cbn [app map fst] in ND; inversion ND; subst.
        -- apply H1. left. auto.
        -- apply H1. rewrite map_app. apply in_or_app. right. right. left. auto.
    + destruct Q1 as [_ Q1], Q2 as [Q2 Q3]. split; auto. intros m M. rewrite Q3, Q1; auto.
Qed.

Theorem walk_back : forall s e P I i j v l fuel, i <> j -> istands ltk s e P I -> listing ltk l (e v) -> (length l < fuel)%nat ->
  exists s' I', (se <- irun [IEnd i v; IBegin j v] s ;; i_while ltk eqk ltv eqv showk showv fuel i j [IBack i; IPrev i] (fst se)) = Ok (s', map MPair (rev l)) /\
    istands ltk s' e P I'.
Proof.
  intros s e P I i j v l fuel N S L F. destruct (put_ex I i (Past v)) as [I1 Q1]. destruct (put_ex I1 j (head_cur v l)) as [I2 Q2].
  destruct (irun_complete [IEnd i v; IBegin j v] s e P I e P I2 ([] ++ [] ++ [])) as (s1 & R1 & S1).
  { auto. } { repeat constructor. }
  { econstructor; [eapply s_end; eauto|]. econstructor; [|constructor]. eapply s_begin; [|exact Q2]. apply head_first. pose proof (listing_keys ltk _ _ L) as [X Y].
    split; auto. intros m. rewrite (Y m). unfold both. tauto. }
  destruct (walk_back_from i j v l l [] s1 e P I2 fuel N S1 L) as (s2 & I3 & R2 & S2 & Q3); auto.
  { rewrite app_nil_r. auto. }
  { destruct Q2 as [_ Q2]. rewrite Q2 by auto. apply Q1. }
  { apply Q2. }
  exists s2, I3. rewrite R1. cbn [bind fst]. auto.
Qed.

Lemma drain_from : forall i j v y s e P I, i <> j -> istands ltk s e P I -> listing ltk y (e v) -> I i = head_cur v y ->
  exists s' e' P' I', i_loop ltk eqk ltv eqv showk showv (S (length y)) i v [ICopy j i; INext i; IRemove v j] s = Ok (s', map (fun _ => MBool true) y) /\
    istands ltk s' e' P' I' /\ (forall k, e' v k = None) /\ (forall w, w <> v -> e' w = e w) /\ I' i = Past v.
Proof.
  intros i j v y. induction y as [|[k z] y]; intros s e P I N S L E; cbn [head_cur fst] in E.
  - exists s, e, P, I. cbn [length i_loop]. rewrite (at_past s e P I i v S E). cbn [bind i_owner]. rewrite Nat.eqb_refl. split; auto. split; auto.
    split; auto. intros k. destruct (e v k) eqn:X; auto. apply L in X. destruct X.
  - destruct (at_node s e P I i v k S E) as (a & T1 & _ & T3 & T4).
    assert (EK : e v k = Some z). { apply L. left. auto. }
    pose proof (listing_keys ltk _ _ L) as LK. cbn [map fst] in LK. pose proof (enum_split [] _ _ _ LK) as LK2.
    destruct (put_ex I j (At v k)) as [I1 Q1]. destruct (put_ex I1 i (head_cur v y)) as [I2 Q2].
    destruct (irun_complete [ICopy j i; INext i] s e P I e P I2 ([] ++ [] ++ [])) as (s1 & R1 & S1).
    { auto. } { repeat constructor. }
    { econstructor; [eapply s_copy; rewrite E; [exact Logic.I|exact Q1]|]. econstructor; [|constructor].
      eapply s_next; [rewrite (proj2 Q1 i N); exact E| |exact Q2]. apply head_first. auto. }
    assert (EJ : I2 j = At v k). { rewrite (proj2 Q2 j); [apply Q1|auto]. }
    destruct (drops_ex ltk OK (e v) k) as [m M].
    destruct (after_ex ltk eqk showk OK DK (MRemove v k) (ih s1) e P (st_view _ _ _ _ (it_refs _ _ _ _ _ S1))) as (P3 & Q3).
    destruct (iafter_ex (MRemove v k) s1 e P I2 S1) as (I3 & QI).
    destruct (icomplete (IRemove v j) s1 e P I2 (fset e v m) P3 I3 [MBool true] S1 Logic.I) as (s3 & R3 & S3).
    { eapply s_remove; [exact EJ|]. apply s_do; auto. apply f_remove; [|exact M]. unfold tells. split; auto. intros _. exists z. auto. }
    assert (LM : listing ltk y (fset e v m v)).
    { unfold fset. rewrite Nat.eqb_refl. destruct M as [M1 M2]. destruct L as [L1 L2]. cbn [map fst] in L1. split; [eapply inc_tail; eauto|].
      pose proof (head_fresh ltk OK _ _ L1) as HF. intros j0 x0. destruct (key_dec ltk OK j0 k) as [->|D].
      - rewrite M1. split; [|discriminate]. intros X. destruct HF. apply in_map_iff. exists (k, x0). auto.
      - rewrite M2 by auto. rewrite <- (L2 j0 x0). cbn [In]. split; auto. intros [X|X]; auto. inversion X. congruence. }
    assert (E3 : I3 i = head_cur v y).
    { specialize (QI i). rewrite (proj1 Q2) in QI. destruct y as [|[k2 z2] y]; cbn [head_cur fst] in QI |- *.
      - destruct QI as [[[] _]|[_ QI]]. auto.
      - destruct QI as (p & QA & QB). cbn [after] in QA. specialize (QA 0%nat). cbn in QA. destruct QA as [[[_ X] _]|[_ ->]]; auto.
        exfalso. subst k2. destruct LK as [LK _]. apply (head_fresh ltk OK _ _ LK). left. auto. }
    destruct (IHy s3 _ _ _ N S3 LM E3) as (s4 & e4 & P4 & I4 & R4 & S4 & V4 & W4 & E4).
    exists s4, e4, P4, I4. split; [|split; [auto|split; [auto|split; [|auto]]]].
    + change (length ((k, z) :: y)) with (Datatypes.S (length y)). remember (Datatypes.S (length y)) as n. cbn [i_loop]. rewrite T1. cbn [bind i_owner]. rewrite T4, Nat.eqb_refl.
      assert (R : irun [ICopy j i; INext i; IRemove v j] s = Ok (s3, [MBool true])).
      { change [ICopy j i; INext i; IRemove v j] with ([ICopy j i; INext i] ++ [@IRemove K V v j]). cbn [app]. cbn [i_run] in R1 |- *.
        destruct (istep (ICopy j i) s) as [[sa ea]| | |]; cbn [bind fst snd] in R1 |- *; try discriminate.
        destruct (istep (INext i) sa) as [[sb eb]| | |]; cbn [bind fst snd] in R1 |- *; try discriminate.
        assert (HA : sb = s1) by (clear - R1; injection R1; intros; assumption). assert (HB : ea ++ eb ++ [] = []) by (clear - R1; injection R1; intros; assumption). clear R1.
        rewrite app_nil_r in HB. apply app_eq_nil in HB. destruct HB as [-> ->]. subst sb. rewrite R3. reflexivity. }
      rewrite R. cbn [bind fst snd]. rewrite R4. reflexivity.
    + intros w W. rewrite W4 by auto. unfold fset. destruct (Nat.eqb_spec w v); [contradiction|auto].
Qed.

Theorem drain_ok : forall s e P I i j v l, i <> j -> istands ltk s e P I -> listing ltk l (e v) ->
  exists s' e' P' I', (se <- irun [IBegin i v] s ;;
      i_loop ltk eqk ltv eqv showk showv (S (length l)) i v [ICopy j i; INext i; IRemove v j] (fst se)) = Ok (s', map (fun _ => MBool true) l) /\
    istands ltk s' e' P' I' /\ (forall k, e' v k = None) /\ (forall w, w <> v -> e' w = e w).
Proof.
  intros s e P I i j v l N S L. destruct (put_ex I i (head_cur v l)) as [I1 Q1].
  destruct (irun_complete [IBegin i v] s e P I e P I1 ([] ++ [])) as (s1 & R1 & S1).
  { auto. } { repeat constructor. }
  { econstructor; [|constructor]. eapply s_begin; [|exact Q1]. apply head_first. pose proof (listing_keys ltk _ _ L) as [X Y].
    split; auto. intros k. rewrite (Y k). unfold both. tauto. }
  destruct (drain_from i j v l s1 e P I1 N S1 L (proj1 Q1)) as (s2 & e2 & P2 & I2 & R2 & S2 & V2 & W2 & _). exists s2, e2, P2, I2.
  rewrite R1. cbn [bind fst]. auto.
Qed.

Lemma do_inv : forall c e P I e' P' I' ev, spec (IDo (PDo c)) e P I e' P' I' ev -> iafter ltk c e I I'.
Proof. intros c e P I e' P' I' ev H. inversion H; subst; auto. match goal with X : forall d, PDo c <> PDo d |- _ => destruct (X c); auto end. Qed.

(** The loop compares with the end of another map. *)
Theorem foreign_loop : forall s e P I i v w n body, istands ltk s e P I -> w <> v -> (exists k, I i = At w k) \/ I i = Past w ->
  i_loop ltk eqk ltv eqv showk showv (S n) i v body s = UB BadDeref.
Proof.
  intros s e P I i v w n body S N [(k & E)|E]; cbn [i_loop].
  - destruct (at_node s e P I i w k S E) as (a & -> & _ & _ & T). cbn [bind i_owner]. rewrite T. destruct (Nat.eqb_spec w v); [congruence|reflexivity].
  - rewrite (at_past s e P I i w S E). cbn [bind i_owner]. destruct (Nat.eqb_spec w v); [congruence|reflexivity].
Qed.
Theorem foreign_while : forall s e P I i j v w n body, istands ltk s e P I -> w <> v -> (exists k, I i = At w k) \/ I i = Past w -> (exists k, I j = At v k) \/ I j = Past v ->
  i_while ltk eqk ltv eqv showk showv (S n) i j body s = UB BadDeref.
Proof.
  intros s e P I i j v w n body S N A B. cbn [i_while].
  assert (X: exists t, i_at s i = Ok t /\ i_owner s t = w).
  { destruct A as [(k & E)|E]; [destruct (at_node s e P I i w k S E) as (a & T & _ & _ & T')|pose proof (at_past s e P I i w S E) as T]; eexists; (split; [exact T|]); auto. }
  assert (Y: exists t, i_at s j = Ok t /\ i_owner s t = v).
  { destruct B as [(k & E)|E]; [destruct (at_node s e P I j v k S E) as (a & T & _ & _ & T')|pose proof (at_past s e P I j v S E) as T]; eexists; (split; [exact T|]); auto. }
  destruct X as (t & -> & X). destruct Y as (u & -> & Y). cbn [bind]. rewrite X, Y. destruct (Nat.eqb_spec w v); [congruence|reflexivity].
Qed.

Theorem remove_then_next : forall s e P I i v k n, istands ltk s e P I -> has (e v) k ->
  (se <- irun [IBegin i v] s ;; i_loop ltk eqk ltv eqv showk showv (S n) i v [IRemove v i; INext i] (fst se)) = UB BadDeref.
Proof.
  intros s e P I i v k n S (z & HK).
  pose proof (st_view _ _ _ _ (it_refs _ _ _ _ _ S) v) as [L _]. destruct (view (ih s) v) as [|[k0 z0] l] eqn:VW.
  { apply L in HK. destruct HK. }
  destruct (put_ex I i (At v k0)) as [I1 Q1].
  destruct (irun_complete [IBegin i v] s e P I e P I1 ([] ++ [])) as (s1 & R1 & S1).
  { auto. } { repeat constructor. }
  { econstructor; [|constructor]. eapply s_begin; [|exact Q1]. apply (head_first e v _ ((k0, z0) :: l)). pose proof (listing_keys ltk _ _ L) as [X Y].
    split; auto. intros j. rewrite (Y j). unfold both. tauto. }
  rewrite R1. cbn [bind fst i_loop]. destruct (at_node s1 e P I1 i v k0 S1 (proj1 Q1)) as (a & T1 & _ & T3 & T4).
  rewrite T1. cbn [bind i_owner]. rewrite T4, Nat.eqb_refl.
  destruct (remove_ex v k0 s1 e P I1 S1) as (e2 & P2 & I2 & ev2 & RM).
  destruct (icomplete (IRemove v i) s1 e P I1 e2 P2 I2 ev2 S1 Logic.I) as (s2 & R2 & S2). { eapply s_remove; [apply Q1|exact RM]. }
  rewrite (step_irun _ _ _ _ _ R2). cbn [i_run i_step].
  assert (D : I2 i = Dead).
  { pose proof (do_inv _ _ _ _ _ _ _ _ RM) as F3. specialize (F3 i). rewrite (proj1 Q1) in F3. destruct F3 as (p & FA & FB).
    cbn [after] in FA. specialize (FA 0%nat). cbn in FA. destruct FA as [[_ ->]|[X _]]; auto. destruct X. auto. }
  rewrite (at_bad s2 e2 P2 I2 i S2); [reflexivity|]. rewrite D. auto.
Qed.
End Iter.

Lemma istart : istands Z.ltb (IState (HState (fun _ => []) (fun _ => 0) (fun _ => false) 0%nat (fun _ => None)) (fun _ => 0%nat) (fun _ => 0%nat) (fun _ => None))
  (fun _ => @no_entry Z Z) (fun _ => Null) (fun _ => Unset).
Proof. constructor; cbn; try contradiction; auto. exact start_stands. Qed.
