(** Proofs about iterators over Sets. *)
From Coq Require Import ZArith List Bool Ascii Lia Sorted Permutation.
From Verif Require Import Outcome ListModel ListSpec ListFacts ListMore ListProg SetModel SetSpec SetFacts SetProg ListRefModel ListRef DictRefModel DictIterSpec SetIterModel SetIterSpec.
Import ListNotations.
Open Scope Z_scope.

Section Iter.
Context {T : Type} (lt eqb : T -> T -> bool) (show : T -> list ascii).
Hypothesis O : strict_total lt.
Hypothesis D : decides eqb.
Implicit Types (s : nstate T) (e : zstore T) (I : nat -> cur T).
Notation ndo := (n_do lt eqb show).
Notation nstp := (n_step lt eqb show).
Notation zspec := (zstep lt show).
Notation ns := (nspec lt show).
Notation node := (T * nat)%type.

(** ** Nodes and elements *)
Lemma lower_view : forall x n (l : list node), lower_bound lt x (map fst l) =
  (map fst (fst (lower_bound (nlt lt) (x, n) l)), map fst (snd (lower_bound (nlt lt) (x, n) l))).
Proof.
  induction l as [|y l IH]; cbn [map lower_bound]; auto. unfold nlt at 1 3. cbn [fst]. destruct (lt (fst y) x); auto.
  rewrite IH. destruct (lower_bound (nlt lt) (x, n) l). auto.
Qed.
Lemma insert_view : forall x n (l : list node), std_insert lt x (map fst l) =
  (fst (std_insert (nlt lt) (x, n) l), map fst (snd (std_insert (nlt lt) (x, n) l))).
Proof.
  intros x n l. unfold std_insert. rewrite (lower_view x n). destruct (lower_bound (nlt lt) (x, n) l) as [a b]. cbn [fst snd].
  destruct b as [|y b]; cbn [map].
  - cbn [fst snd]. rewrite map_app. auto.
  - change (nlt lt (x, n) y) with (lt x (fst y)). destruct (lt x (fst y)); cbn [fst snd]; auto. rewrite map_app. auto.
Qed.
Lemma erase_view : forall x n (l : list node), std_erase lt x (map fst l) =
  (fst (std_erase (nlt lt) (x, n) l), map fst (snd (std_erase (nlt lt) (x, n) l))).
Proof.
  intros x n l. unfold std_erase. rewrite (lower_view x n). destruct (lower_bound (nlt lt) (x, n) l) as [a b]. cbn [fst snd].
  destruct b as [|y b]; cbn [map]; auto.
  change (nlt lt (x, n) y) with (lt x (fst y)). destruct (lt x (fst y)); cbn [fst snd]; auto. rewrite map_app. auto.
Qed.
Lemma numbered_view : forall xs n, map fst (numbered n xs : list node) = xs.
Proof. induction xs as [|x xs IH]; intros n; cbn; auto. f_equal. apply IH. Qed.
Lemma numbered_cons : forall x xs n, (numbered n (x :: xs) : list node) = (x, n) :: numbered (Datatypes.S n) xs.
Proof. auto. Qed.
Lemma numbered_addr : forall xs n, map snd (numbered n xs : list node) = seq n (length xs).
Proof. induction xs as [|x xs IH]; intros n; cbn; auto. f_equal. apply IH. Qed.
Lemma range_view : forall xs n (l : list node), std_insert_range lt xs (map fst l) = map fst (std_insert_range (nlt lt) (numbered n xs) l).
Proof.
  induction xs as [|x xs IH]; intros n l; auto. rewrite numbered_cons. unfold std_insert_range in *. cbn [fold_left].
  rewrite (insert_view x n). cbn [snd]. apply IH.
Qed.
Lemma size_view : forall l : list node, size (map fst l) = size l.
Proof. intros l. unfold size. unfold len. rewrite map_length. auto. Qed.

(** ** Changes in place *)
Lemma lower_app : forall (p : node) l a b, lower_bound (nlt lt) p l = (a, b) -> l = a ++ b.
Proof.
  induction l as [|y l IH]; intros a b H; cbn [lower_bound] in H; [inversion H; auto|].
  destruct (nlt lt y p); [|inversion H; auto]. destruct (lower_bound (nlt lt) p l) as [a' b'] eqn:E. inversion H; subst. cbn. f_equal. auto.
Qed.
Lemma insert_shape : forall (p : node) l, snd (std_insert (nlt lt) p l) = l \/ exists a b, l = a ++ b /\ snd (std_insert (nlt lt) p l) = a ++ p :: b.
Proof.
  intros p l. unfold std_insert. destruct (lower_bound (nlt lt) p l) as [a b] eqn:E. apply lower_app in E. subst.
  destruct b as [|y b].
  - right. exists a, []. auto.
  - destruct (nlt lt p y); [|auto]. right. exists a, (y :: b). auto.
Qed.
Lemma erase_shape : forall (p : node) l, snd (std_erase (nlt lt) p l) = l \/ exists a y b, l = a ++ y :: b /\ snd (std_erase (nlt lt) p l) = a ++ b.
Proof.
  intros p l. unfold std_erase. destruct (lower_bound (nlt lt) p l) as [a b] eqn:E. apply lower_app in E. subst.
  destruct b as [|y b]; auto. destruct (nlt lt p y); [auto|]. right. exists a, y, b. auto.
Qed.

(** [l'] keeps the nodes of [l] whose elements are still there; other nodes have addresses from [n] to [n + k]. *)
Definition inplace (n k : nat) (l l' : list node) : Prop :=
  (forall p, In p l' -> In p l \/ (n <= snd p < n + k)%nat) /\
  (forall p, In p l -> In (fst p) (map fst l') -> In p l') /\
  NoDup (map snd l').

Lemma inplace_refl : forall n k l, NoDup (map snd l) -> inplace n k l l.
Proof. intros n k l N. split; auto. Qed.
Lemma inplace_nil : forall n k l, inplace n k l [].
Proof. intros n k l. split; [intros p []|]. split; [intros p _ []|constructor]. Qed.
Lemma inplace_drop : forall n k a y b, NoDup (map fst (a ++ y :: b)) -> NoDup (map snd (a ++ y :: b)) -> inplace n k (a ++ y :: b) (a ++ b).
Proof.
  intros n k a y b M N. rewrite map_app in M, N. cbn [map] in M, N. split; [|split].
  - intros p P. left. apply in_app_or in P. apply in_or_app. destruct P; auto. right. right. auto.
  - intros p P Q. apply in_app_or in P. apply in_or_app. destruct P as [P|[->|P]]; auto. exfalso.
    apply NoDup_remove_2 in M. rewrite map_app in Q. auto.
  - rewrite map_app. apply NoDup_remove_1 in N. auto.
Qed.
Lemma inplace_insert : forall n x l, (forall p, In p l -> (snd p < n)%nat) -> NoDup (map snd l) -> inplace n 1 l (snd (std_insert (nlt lt) (x, n) l)).
Proof.
  intros n x l B N. destruct (insert_shape (x, n) l) as [->|(a & b & -> & ->)]; [apply inplace_refl; auto|]. split; [|split].
  - intros p P. apply in_app_or in P. destruct P as [P|[<-|P]]; [left; apply in_or_app; auto|right; cbn; lia|left; apply in_or_app; auto].
  - intros p P _. apply in_app_or in P. apply in_or_app. cbn [In]. tauto.
  - rewrite map_app in *. cbn [map snd]. apply (NoDup_Add (a := n) (l := map snd a ++ map snd b)).
    + apply Add_app.
    + split; auto. rewrite <- map_app. intros X. apply in_map_iff in X. destruct X as (p & E & X). apply B in X. lia.
Qed.
Lemma insert_keeps : forall (p q : node) l, In q l -> In q (snd (std_insert (nlt lt) p l)).
Proof.
  intros p q l X. destruct (insert_shape p l) as [->|(a & b & -> & ->)]; auto. apply in_app_or in X. apply in_or_app. cbn [In]. tauto.
Qed.
Lemma range_keeps : forall (ps : list node) q l, In q l -> In q (std_insert_range (nlt lt) ps l).
Proof. induction ps as [|p ps IH]; intros q l X; auto. cbn. apply IH, insert_keeps. auto. Qed.
Lemma inplace_range : forall xs n l, (forall p, In p l -> (snd p < n)%nat) -> NoDup (map snd l) ->
  inplace n (length xs) l (std_insert_range (nlt lt) (numbered n xs) l).
Proof.
  induction xs as [|x xs IH]; intros n l B N; [apply inplace_refl; auto|]. rewrite numbered_cons. cbn [std_insert_range fold_left length].
  destruct (inplace_insert n x l B N) as (A1 & _ & A3).
  destruct (IH (Datatypes.S n) (snd (std_insert (nlt lt) (x, n) l))) as (B1 & _ & B3); auto.
  { intros p P. apply A1 in P. destruct P as [P|P]; [apply B in P|]; lia. }
  split; [|split; auto].
  - intros p P. apply B1 in P. destruct P as [P|P]; [|right; lia]. apply A1 in P. destruct P as [P|P]; [auto|right; lia].
  - intros p P _. apply range_keeps, insert_keeps. auto.
Qed.

(** ** States *)
Lemma stands_ext : forall (s s' : tstore T) e, stands lt s e -> (forall v, s' v = s v) -> stands lt s' e.
Proof. intros s s' e S E v. rewrite E. auto. Qed.
Lemma in_view : forall s e v x, stands lt (nview s) e -> (e v x <-> exists a, In (x, a) (nd s v)).
Proof.
  intros s e v x S. destruct (S v) as ((_ & E) & _). rewrite <- E. unfold nview. rewrite in_map_iff. split.
  - intros ([y a] & <- & X). eauto.
  - intros (a & X). exists (x, a). auto.
Qed.
Lemma elems_nodup : forall s e v, stands lt (nview s) e -> NoDup (map fst (nd s v)).
Proof. intros s e v S. apply (inc_nodup lt O). apply S. Qed.
Lemma one_node : forall s e v x a b, stands lt (nview s) e -> In (x, a) (nd s v) -> In (x, b) (nd s v) -> a = b.
Proof.
  intros s e v x a b S A B. pose proof (elems_nodup s e v S) as N. revert A B N. generalize (nd s v). induction l as [|[y c] l IH]; cbn [In map fst]; [tauto|].
  intros A B N. inversion N as [|? ? N1 N2]; subst. assert (W : forall d, ~ (y = x /\ In (x, d) l)).
  { intros d (-> & X). apply N1. apply in_map_iff. exists (x, d). auto. }
  destruct A as [A|A], B as [B|B]; auto.
  - congruence.
  - inversion A; subst. destruct (W b); auto.
  - inversion B; subst. destruct (W a); auto.
Qed.
Lemma one_elem : forall s e I v x y a, nstands lt s e I -> In (x, a) (nd s v) -> In (y, a) (nd s v) -> x = y.
Proof.
  intros s e I v x y a S A B. pose proof (nt_one _ _ _ _ S v) as N. revert A B N. generalize (nd s v). induction l as [|[z c] l IH]; cbn [In map snd]; [tauto|].
  intros A B N. inversion N as [|? ? N1 N2]; subst. assert (W : forall d, ~ (c = a /\ In (d, a) l)).
  { intros d (-> & X). apply N1. apply in_map_iff. exists (d, a). auto. }
  destruct A as [A|A], B as [B|B]; auto.
  - congruence.
  - inversion A; subst. destruct (W y); auto.
  - inversion B; subst. destruct (W x); auto.
Qed.

Definition still (c : tstmt T) e : Prop := (forall v, ~ assigned c e v) /\ (forall v w, ~ handed c v w).

(** A statement that changes [v] in place, or nothing. *)
Lemma call_stands : forall c s e I e' I' v k l', nstands lt s e I -> still c e -> nafter c e e' I I' -> inplace (nc s) k (nd s v) l' ->
  stands lt (nview (NState (nset (nd s) v l') (nc s + k) (owned v (nc s) (no s)) (ng s) (ni s))) e' ->
  nstands lt (NState (nset (nd s) v l') (nc s + k) (owned v (nc s) (no s)) (ng s) (ni s)) e' I'.
Proof.
  intros c s e I e' I' v k l' S (NA & NH) AF (P1 & P2 & P3) V.
  assert (OWN : forall u x a, In (x, a) (nset (nd s) v l' u) -> (In (x, a) (nd s u) /\ no s a = u /\ (a < nc s)%nat) \/ (u = v /\ (nc s <= a < nc s + k)%nat)).
  { intros u x a X. unfold nset in X. destruct (Nat.eqb_spec u v).
    - subst. apply P1 in X. destruct X as [X|X]; auto. left. split; auto. apply (nt_own _ _ _ _ S _ x); auto.
    - left. split; auto. apply (nt_own _ _ _ _ S _ x); auto. }
  split; cbn [nd nc no ng ni]; auto.
  - intros u x a X. apply OWN in X. unfold owned. destruct X as [(X & E & L)|(E & L)].
    + destruct (Nat.leb_spec (nc s) a); [lia|]. split; [auto|lia].
    + destruct (Nat.leb_spec (nc s) a); [|lia]. split; [auto|lia].
  - intros u. unfold nset. destruct (Nat.eqb u v); auto. apply S.
  - intros i. specialize (AF i). pose proof (nt_cur _ _ _ _ S i) as C. destruct (I i) as [|u x|u|] eqn:Ei.
    + rewrite AF. auto.
    + destruct C as (a & C1 & C2). destruct AF as [([A|(w & A)] & _)|[(w & A & _)|(_ & _ & [(A & ->)|(A & ->)])]];
        try (exfalso; (eapply NA + eapply NH); eauto; fail).
      * exists a. split; auto. apply (in_view _ _ _ _ V) in A. destruct A as (b & B). cbn [nd] in B. unfold nset in *. destruct (Nat.eqb_spec u v).
        -- subst. apply P2; auto. apply in_map_iff. exists (x, b). auto.
        -- rewrite (one_node _ _ _ _ _ _ (nt_sets _ _ _ _ S) C2 B). rewrite <- (one_node _ _ _ _ _ _ (nt_sets _ _ _ _ S) C2 B). auto.
      * rewrite C1. destruct (nt_own _ _ _ _ S _ _ _ C2) as (C3 & C4). split; [lia|]. intros w y X. assert (Y := X).
        apply OWN in X. destruct X as [(X & X1 & X2)|(_ & X)]; [|lia].
        assert (W : w = u) by congruence. rewrite W in *. assert (y = x) by (apply (one_elem s e I u y x a); auto). subst y.
        apply A. apply (in_view _ _ _ _ V). cbn [nd]. eauto.
    + destruct AF as [([A|(w & [A|A])] & _)|(_ & _ & ->)]; try (exfalso; (eapply NA + eapply NH); eauto; fail). auto.
    + rewrite AF. destruct (ni s i) as [|a|u n]; auto. destruct C as (C1 & C2). split; [lia|]. intros u x X. apply OWN in X. destruct X as [(X & _)|(_ & X)]; [eapply C2; eauto|lia].
Qed.

(** A statement that changes nothing. *)
Lemma same_stands : forall c s e I e' I', nstands lt s e I -> still c e -> nafter c e e' I I' -> stands lt (nview s) e' -> nstands lt s e' I'.
Proof.
  intros c s e I e' I' S (NA & NH) AF V. split; auto; try apply S.
  intros i. specialize (AF i). pose proof (nt_cur _ _ _ _ S i) as C. destruct (I i) as [|u x|u|] eqn:Ei.
  - rewrite AF. auto.
  - destruct AF as [([A|(w & A)] & _)|[(w & A & _)|(_ & _ & [(A & ->)|(A & ->)])]]; try (exfalso; (eapply NA + eapply NH); eauto; fail); auto.
    exfalso. apply A. apply (in_view _ _ _ _ V). destruct C as (a & _ & C). eauto.
  - destruct AF as [([A|(w & [A|A])] & _)|(_ & _ & ->)]; try (exfalso; (eapply NA + eapply NH); eauto; fail). auto.
  - rewrite AF. auto.
Qed.

Lemma numbered_in : forall xs n x a, In (x, a) (numbered n xs : list node) -> (n <= a < n + length xs)%nat.
Proof. intros xs n x a X. assert (Y : In a (map snd (numbered n xs : list node))) by (apply in_map_iff; exists (x, a); auto). rewrite numbered_addr in Y. apply in_seq in Y. lia. Qed.

(** A statement that assigns [v]. *)
Lemma assign_stands : forall c s e I e' I' v l, nstands lt s e I -> (forall u, assigned c e u <-> u = v) -> (forall u w, ~ handed c u w) -> nafter c e e' I I' ->
  stands lt (nview (n_assign v l s)) e' -> nstands lt (n_assign v l s) e' I'.
Proof.
  intros c s e I e' I' v l S NA NH AF V.
  assert (OWN : forall u x a, In (x, a) (nset (nd s) v (numbered (nc s) l) u) ->
    (u <> v /\ In (x, a) (nd s u) /\ no s a = u /\ (a < nc s)%nat) \/ (u = v /\ (nc s <= a < nc s + length l)%nat)).
  { intros u x a X. unfold nset in X. destruct (Nat.eqb_spec u v).
    - subst. apply numbered_in in X. auto.
    - left. split; auto. split; auto. apply (nt_own _ _ _ _ S _ x); auto. }
  split; cbn [nd nc no ng ni n_assign]; auto.
  - intros u x a X. apply OWN in X. unfold owned. destruct X as [(_ & X & E & L)|(E & L)].
    + destruct (Nat.leb_spec (nc s) a); [lia|]. split; [auto|lia].
    + destruct (Nat.leb_spec (nc s) a); [|lia]. split; [auto|lia].
  - intros u. unfold nset. destruct (Nat.eqb u v); [|apply S]. rewrite numbered_addr. apply seq_NoDup.
  - intros i. specialize (AF i). pose proof (nt_cur _ _ _ _ S i) as C. destruct (I i) as [|u x|u|] eqn:Ei.
    + rewrite AF. auto.
    + destruct C as (a & C1 & C2). destruct (nt_own _ _ _ _ S _ _ _ C2) as (C3 & C4).
      destruct AF as [([A|(w & A)] & ->)|[(w & A & _)|(A & _ & [(B & ->)|(B & ->)])]]; try (exfalso; eapply NH; eauto; fail).
      * apply NA in A. rewrite C1. split; [lia|]. intros w y X. apply OWN in X. destruct X as [(N & X & X1 & _)|(_ & X)]; [congruence|lia].
      * assert (N : u <> v) by (intros X; apply A, NA; auto). exists a. split; auto. unfold nset. destruct (Nat.eqb_spec u v); [contradiction|auto].
      * exfalso. apply B. apply (in_view _ _ _ _ V). exists a. cbn [nd n_assign]. unfold nset. destruct (Nat.eqb_spec u v); auto. destruct A. apply NA. auto.
    + destruct AF as [([A|(w & [A|A])] & ->)|(A & _ & ->)]; try (exfalso; eapply NH; eauto; fail).
      * apply NA in A. subst. rewrite C. unfold nset. rewrite Nat.eqb_refl. lia.
      * unfold nset. destruct (Nat.eqb_spec u v); auto. destruct A. apply NA. auto.
    + rewrite AF. destruct (ni s i) as [|a|u n]; auto.
      * destruct C as (C1 & C2). split; [lia|]. intros u x X. apply OWN in X. destruct X as [(_ & X & _)|(_ & X)]; [eapply C2; eauto|lia].
      * unfold nset. destruct (Nat.eqb_spec u v); [subst; lia|auto].
Qed.

(** [v = std::move(w)] *)
Lemma move_stands : forall s e I e' I' v w, nstands lt s e I -> v <> w -> nafter (TMove v w) e e' I I' ->
  stands lt (nview (n_move v w s)) e' -> nstands lt (n_move v w s) e' I'.
Proof.
  intros s e I e' I' v w S N AF V.
  assert (OWN : forall u x a, In (x, a) (nset (nset (nd s) v (nd s w)) w [] u) ->
    (u <> w /\ u <> v /\ In (x, a) (nd s u)) \/ (u = v /\ In (x, a) (nd s w))).
  { intros u x a X. unfold nset in X. destruct (Nat.eqb_spec u w); [destruct X|]. destruct (Nat.eqb_spec u v); auto. }
  split; cbn [nd nc no ng ni n_move]; auto.
  - intros u x a X. apply OWN in X. destruct X as [(N1 & N2 & X)|(-> & X)]; destruct (nt_own _ _ _ _ S _ _ _ X) as (E & L); rewrite E.
    + destruct (Nat.eqb_spec u w); [contradiction|auto].
    + rewrite Nat.eqb_refl. auto.
  - intros u. unfold nset. destruct (Nat.eqb u w); [constructor|]. destruct (Nat.eqb u v); apply S.
  - intros i. specialize (AF i). pose proof (nt_cur _ _ _ _ S i) as C. destruct (I i) as [|u x|u|] eqn:Ei.
    + rewrite AF. auto.
    + destruct C as (a & C1 & C2). destruct (nt_own _ _ _ _ S _ _ _ C2) as (C3 & C4). unfold handed in AF.
      destruct AF as [([[]|(z & A)] & ->)|[(z & A & ->)|(_ & A & [(B & ->)|(B & ->)])]].
      * injection A as A1 A2; subst z. rewrite C1. split; auto. intros z y X. apply OWN in X. destruct X as [(N1 & N2 & X)|(E & X)].
        { destruct (nt_own _ _ _ _ S _ _ _ X) as (Y & _). congruence. }
        { destruct (nt_own _ _ _ _ S _ _ _ X) as (Y & _). congruence. }
      * injection A as A1 A2; subst z. exists a. split; auto. unfold nset. destruct (Nat.eqb_spec v w); [contradiction|]. rewrite Nat.eqb_refl. congruence.
      * exists a. split; auto. unfold nset. destruct (Nat.eqb_spec u w) as [X|X]; [exfalso; apply (proj2 (A v)); congruence|].
        destruct (Nat.eqb_spec u v) as [Y|Y]; [exfalso; apply (proj1 (A w)); congruence|auto].
      * exfalso. apply B. apply (in_view _ _ _ _ V). exists a. cbn [nd n_move]. unfold nset.
        destruct (Nat.eqb_spec u w) as [X|X]; [exfalso; apply (proj2 (A v)); congruence|].
        destruct (Nat.eqb_spec u v) as [Y|Y]; [exfalso; apply (proj1 (A w)); congruence|auto].
    + unfold handed in AF. destruct AF as [([[]|(z & [A|A])] & ->)|(_ & A & ->)].
      * injection A as A1 A2; subst z. rewrite C. unfold nset. destruct (Nat.eqb_spec u w); [congruence|]. destruct (Nat.eqb_spec u v); [subst; lia|congruence].
      * injection A as A1 A2. rewrite <- A2 in *. rewrite C. unfold nset. rewrite Nat.eqb_refl. lia.
      * unfold nset. destruct (Nat.eqb_spec u w) as [X|X]; [exfalso; apply (proj2 (A v)); congruence|].
        destruct (Nat.eqb_spec u v) as [Y|Y]; [exfalso; apply (proj1 (A w)); congruence|auto].
    + rewrite AF. destruct (ni s i) as [|a|u n]; auto.
      * destruct C as (C1 & C2). split; [lia|]. intros u x X. apply OWN in X. destruct X as [(_ & _ & X)|(_ & X)]; eapply C2; eauto.
      * unfold nset. destruct (Nat.eqb_spec u w); [subst; lia|]. destruct (Nat.eqb_spec u v); [subst; lia|auto].
Qed.

(** ** Statements without iterators *)
Lemma view_assign : forall v l s u, nview (n_assign v l s) u = tset (nview s) v l u.
Proof. intros v l s u. unfold nview, tset. cbn [nd n_assign]. unfold nset. destruct (Nat.eqb u v); auto. apply numbered_view. Qed.
Lemma view_call : forall v l' s k g u, nview (NState (nset (nd s) v l') k g (ng s) (ni s)) u = tset (nview s) v (map fst l') u.
Proof. intros v l' s k g u. unfold nview, tset. cbn [nd]. unfold nset. destruct (Nat.eqb u v); auto. Qed.
Lemma view_move : forall v w s u, nview (n_move v w s) u = tset (tset (nview s) v (nview s w)) w [] u.
Proof. intros v w s u. unfold nview, tset. cbn [nd n_move]. unfold nset. destruct (Nat.eqb u w); auto. destruct (Nat.eqb u v); auto. Qed.

Lemma old_nodes : forall s e I v p, nstands lt s e I -> In p (nd s v) -> (snd p < nc s)%nat.
Proof. intros s e I v (x, a) S X. apply (nt_own _ _ _ _ S) in X. apply X. Qed.

Lemma add_view : forall x n (l : list node), set_add lt x (map fst l) = (fst (set_add (nlt lt) (x, n) l), map fst (snd (set_add (nlt lt) (x, n) l))).
Proof.
  intros x n l. unfold set_add. rewrite size_view. destruct (check_full (size l) INT_MAX); auto. rewrite (insert_view x n).
  destruct (std_insert (nlt lt) (x, n) l). auto.
Qed.
Lemma remove_view : forall x n (l : list node), set_remove lt x (map fst l) = (fst (set_remove (nlt lt) (x, n) l), map fst (snd (set_remove (nlt lt) (x, n) l))).
Proof. intros x n l. unfold set_remove. rewrite (erase_view x n). destruct (std_erase (nlt lt) (x, n) l). auto. Qed.

(** The members on nodes do to the elements what the members on elements do. *)
Lemma call_view : forall (A B : Type) (m : M (list T) A) (m' : M (list node) B) (out : A -> list (tevent T)) (out' : B -> list (tevent T)) s v k t ev,
  snd (m (nview s v)) = map fst (snd (m' (nd s v))) ->
  match fst (m (nview s v)), fst (m' (nd s v)) with
  | Ok a, Ok b => out a = out' b | Throw x, Throw y => x = y | UB x, UB y => x = y | OutOfFuel, OutOfFuel => True | _, _ => False end ->
  tcall (nview s) v m out = Ok (t, ev) ->
  exists s', n_call v k m' out' s = Ok (s', ev) /\ (forall u, nview s' u = t u) /\
    s' = NState (nset (nd s) v (snd (m' (nd s v)))) (nc s + k) (owned v (nc s) (no s)) (ng s) (ni s).
Proof.
  intros A B m m' out out' s v k t ev E F H. unfold tcall in H. unfold n_call. destruct (m (nview s v)) as [[a|x|u|] l], (m' (nd s v)) as [[b|y|z|] l'];
    cbn [fst snd] in *; try contradiction; try discriminate; inversion H; subst; eexists; split; try (rewrite F; reflexivity); try reflexivity; (split; [intros u; rewrite view_call; auto|auto]).
Qed.

Lemma n_size : forall s e v, stands lt (nview s) e -> size (nd s v) = len (nview s v).
Proof. intros s e v S. rewrite <- size_view. apply size_ok. apply S. Qed.

Ltac quiet := split; intros; cbn; unfold handed; [tauto|discriminate].

Theorem ndo_complete : forall c s e I e' I' ev, nstands lt s e I -> tint_stmt c -> zspec c e e' ev -> nafter c e e' I I' ->
  exists s', ndo c s = Ok (s', ev) /\ nstands lt s' e' I'.
Proof.
  intros c s e I e' I' ev S A H AF. pose proof (nt_sets _ _ _ _ S) as V.
  destruct (zcomplete lt eqb show O D c (nview s) e e' ev V A H) as (t & E & V').
  assert (FO : forall a b, fit (e a) (e b) <-> len (nview s a) + len (nview s b) <= INT_MAX) by (intros; apply (fit_ok lt O); auto).
  assert (SZ : forall u, size (nd s u) = len (nview s u)) by (intros; eapply n_size; eauto).
  assert (SZ' : forall u, size (nview s u) = len (nview s u)) by (intros; apply size_ok; apply V).
  assert (RD : forall t0, (t0 = nview s) -> t = t0 -> still c e -> nstands lt s e' I').
  { intros t0 -> -> ST. eapply same_stands; eauto. }
  assert (OLD : forall v p, In p (nd s v) -> (snd p < nc s)%nat) by (intros; eapply old_nodes; eauto).
  assert (ASG : forall v l, t = tset (nview s) v l -> (forall u, assigned c e u <-> u = v) -> (forall u w, ~ handed c u w) -> nstands lt (n_assign v l s) e' I').
  { intros v l -> X Y. eapply assign_stands; eauto. eapply stands_ext; eauto. intros; apply view_assign. }
  assert (CAL : forall v k l', (forall u, nview (NState (nset (nd s) v l') (nc s + k) (owned v (nc s) (no s)) (ng s) (ni s)) u = t u) -> still c e ->
     inplace (nc s) k (nd s v) l' -> nstands lt (NState (nset (nd s) v l') (nc s + k) (owned v (nc s) (no s)) (ng s) (ni s)) e' I').
  { intros v k l' X ST IP. eapply call_stands; eauto. eapply stands_ext; eauto. }
  pose proof (elems_nodup s e) as ND. pose proof (nt_one _ _ _ _ S) as N1.
  destruct c; cbn [n_do]; cbn [tstep] in E; cbn [tint_stmt] in A;
    try (cbn [tstep]; rewrite E; eexists; split; [reflexivity|]; apply (RD (nview s)); auto; [|quiet];
    unfold temit in E; try match type of E with context [match ?o with Ok _ => _ | _ => _ end] => destruct o end; inversion E; reflexivity).
  - inversion E; subst. eexists; split; [reflexivity|]. apply ASG; [auto|cbn; intuition|unfold handed; discriminate].
  - destruct (Nat.eqb_spec v w).
    + inversion E; subst. eexists; split; [reflexivity|]. eapply same_stands; eauto; [split; cbn; unfold handed; [intros u (_ & X); congruence|discriminate]|].
      eapply stands_ext; eauto. intros u. unfold tset. destruct (Nat.eqb_spec u w); [subst|]; auto.
    + inversion E; subst. eexists; split; [reflexivity|]. apply ASG; [auto|cbn; intuition|unfold handed; discriminate].
  - destruct (Nat.eqb_spec v w); [discriminate|]. inversion E; subst. eexists; split; [reflexivity|]. eapply move_stands; eauto.
    eapply stands_ext; eauto. intros; apply view_move.
  - edestruct (call_view _ _ (set_add lt x) (set_add (nlt lt) (x, nc s)) (fun b => [TBool b]) (fun b => [TBool b]) s v 1 t ev) as (s' & E1 & E2 & ->).
    + unfold nview. rewrite (add_view x (nc s)). auto.
    + unfold nview. rewrite (add_view x (nc s)). cbn [fst]. destruct (fst (set_add (nlt lt) (x, nc s) (nd s v))); auto.
    + exact E.
    + eexists; split; [exact E1|]. apply CAL; auto; [quiet|]. unfold set_add. destruct (check_full (size (nd s v)) INT_MAX); cbn [snd]; try (apply inplace_refl; auto; fail).
      pose proof (inplace_insert (nc s) x (nd s v) (OLD v) (N1 v)) as IP. destruct (std_insert (nlt lt) (x, nc s) (nd s v)). exact IP.
  - edestruct (call_view _ _ (set_remove lt x) (set_remove (nlt lt) (x, nc s)) (fun b => [TBool b]) (fun b => [TBool b]) s v 0 t ev) as (s' & E1 & E2 & ->).
    + unfold nview. rewrite (remove_view x (nc s)). auto.
    + unfold nview. rewrite (remove_view x (nc s)). cbn [fst]. destruct (fst (set_remove (nlt lt) (x, nc s) (nd s v))); auto.
    + exact E.
    + eexists; split; [exact E1|]. apply CAL; auto; [quiet|]. unfold set_remove. pose proof (erase_shape (x, nc s) (nd s v)) as SH.
      destruct (std_erase (nlt lt) (x, nc s) (nd s v)) as [z l']. cbn [snd] in *. destruct SH as [->|(a & y & b & Q & ->)]; [apply inplace_refl; auto|].
      specialize (ND v V). specialize (N1 v). rewrite Q in *. apply inplace_drop; auto.
  - edestruct (call_view _ _ set_pop set_pop (fun x => [TElem x]) (fun p => [TElem (fst p)]) s v 0 t ev) as (s' & E1 & E2 & ->).
    + unfold nview, set_pop. rewrite size_view. destruct (check_empty (size (nd s v))); auto. destruct (nd s v); auto.
    + unfold nview, set_pop. rewrite size_view. destruct (check_empty (size (nd s v))); cbn [fst]; auto. destruct (nd s v); cbn; auto.
    + exact E.
    + eexists; split; [exact E1|]. apply CAL; auto; [quiet|]. unfold set_pop. destruct (check_empty (size (nd s v))); cbn [snd]; try (apply inplace_refl; auto; fail).
      destruct (nd s v) as [|y l] eqn:Q; cbn [snd]; [apply inplace_refl; constructor|]. specialize (ND v V). specialize (N1 v). rewrite Q in *. apply (inplace_drop _ _ []); auto.
  - unfold n_guard, tguard in *. rewrite SZ. rewrite SZ' in E. destruct (len xs <=? INT_MAX - len (nview s v)).
    + edestruct (call_view _ _ (set_extend lt xs) (set_extend (nlt lt) (numbered (nc s) xs)) tsilent (fun _ => []) s v (length xs) t ev) as (s' & E1 & E2 & ->).
      * unfold set_extend, update. cbn [snd]. apply range_view.
      * unfold set_extend, update. cbn [fst]. auto.
      * exact E.
      * eexists; split; [exact E1|]. apply CAL; auto; [quiet|]. exact (inplace_range xs (nc s) (nd s v) (OLD v) (N1 v)).
    + inversion E; subst. eexists; split; [reflexivity|]. eapply RD; eauto. quiet.
  - unfold n_guard, tguard in *. rewrite !SZ. rewrite !SZ' in E. destruct (len (nview s w) <=? INT_MAX - len (nview s v)).
    + destruct (Nat.eqb v w); [discriminate|].
      edestruct (call_view _ _ (set_extend lt (nview s w)) (set_extend (nlt lt) (numbered (nc s) (nview s w))) tsilent (fun _ => []) s v (length (nview s w)) t ev) as (s' & E1 & E2 & ->).
      * unfold set_extend, update. cbn [snd]. apply range_view.
      * unfold set_extend, update. cbn [fst]. auto.
      * exact E.
      * eexists; split; [exact E1|]. apply CAL; auto; [quiet|]. exact (inplace_range (nview s w) (nc s) (nd s v) (OLD v) (N1 v)).
    + inversion E; subst. eexists; split; [reflexivity|]. eapply RD; eauto. quiet.
  - edestruct (call_view _ _ set_clear set_clear tsilent (fun _ => []) s v 0 t ev) as (s' & E1 & E2 & ->); [auto|reflexivity|exact E|].
    eexists; split; [exact E1|]. apply CAL; auto; [quiet|]. apply inplace_nil.
  - inversion E; subst. eexists; split; [reflexivity|]. apply ASG; [auto|cbn; intuition|unfold handed; discriminate].
  - unfold n_guard, tguard in *. rewrite !SZ. rewrite !SZ' in E. destruct (Z.leb_spec (len (nview s w)) (INT_MAX - len (nview s v))) as [G|G].
    + inversion E; subst. eexists; split; [reflexivity|]. apply ASG; [auto| |unfold handed; discriminate]. cbn [assigned]. intros y. split; [intros (X & _); auto|]. intros ->. split; auto. apply FO. lia.
    + inversion E; subst. eexists; split; [reflexivity|]. eapply RD; eauto. split; [|unfold handed; discriminate]. cbn [assigned]. intros y (_ & X). apply FO in X. lia.
  - inversion E; subst. eexists; split; [reflexivity|]. apply ASG; [auto|cbn; intuition|unfold handed; discriminate].
  - unfold n_guard, tguard in *. rewrite !SZ. rewrite !SZ' in E. destruct (Z.leb_spec (len (nview s w)) (INT_MAX - len (nview s v))) as [G|G].
    + inversion E; subst. eexists; split; [reflexivity|]. apply ASG; [auto| |unfold handed; discriminate]. cbn [assigned]. intros y. split; [intros (X & _); auto|]. intros ->. split; auto. apply FO. lia.
    + inversion E; subst. eexists; split; [reflexivity|]. eapply RD; eauto. split; [|unfold handed; discriminate]. cbn [assigned]. intros y (_ & X). apply FO in X. lia.
  - inversion E; subst. eexists; split; [reflexivity|]. apply ASG; [auto|cbn; intuition|unfold handed; discriminate].
  - unfold n_guard, tguard in *. rewrite !SZ. rewrite !SZ' in E. destruct (Z.leb_spec (len (nview s w)) (INT_MAX - len (nview s v))) as [G|G].
    + inversion E; subst. eexists; split; [reflexivity|]. apply ASG; [auto|cbn [assigned]|unfold handed; discriminate].
      intros u. split; [intros (X & _); auto|]. intros ->. split; auto. apply FO. lia.
    + inversion E; subst. eexists; split; [reflexivity|]. eapply RD; eauto. split; [|unfold handed; discriminate]. cbn [assigned]. intros u (_ & X). apply FO in X. lia.
  - inversion E; subst. eexists; split; [reflexivity|]. apply ASG; [auto|cbn; intuition|unfold handed; discriminate].
  - unfold n_guard, tguard in *. rewrite !SZ. rewrite !SZ' in E. destruct (Z.leb_spec (len (nview s w)) (INT_MAX - len (nview s v))) as [G|G].
    + inversion E; subst. eexists; split; [reflexivity|]. apply ASG; [auto|cbn [assigned]|unfold handed; discriminate].
      intros u. split; [intros (X & _); auto|]. intros ->. split; auto. apply FO. lia.
    + inversion E; subst. eexists; split; [reflexivity|]. eapply RD; eauto. split; [|unfold handed; discriminate]. cbn [assigned]. intros u (_ & X). apply FO in X. lia.
  - cbn [tstep]. inversion E; subst. eexists; split; [reflexivity|]. apply (RD (nview s)); auto. quiet.
Qed.

(** ** Places *)
Definition place s v p : cur T := match nth_error (nd s v) p with Some q => At v (fst q) | None => Past v end.

Lemma place_at : forall s v p x, nth_error (nview s v) p = Some x -> place s v p = At v x.
Proof. intros s v p x E. unfold place. unfold nview in E. rewrite nth_error_map in E. destruct (nth_error (nd s v) p); inversion E; auto. Qed.
Lemma place_end : forall s v p, (length (nview s v) <= p)%nat -> place s v p = Past v.
Proof. intros s v p L. unfold place. unfold nview in L. rewrite map_length in L. rewrite (proj2 (nth_error_None _ _) L). auto. Qed.
Lemma place_whose : forall s v p, whose (place s v p) = Some v.
Proof. intros s v p. unfold place. destruct (nth_error (nd s v) p); auto. Qed.
Lemma view_len : forall s v, length (nview s v) = length (nd s v).
Proof. intros. apply map_length. Qed.
Lemma place_cases : forall s v p, (p <= length (nview s v))%nat ->
  (exists x, nth_error (nview s v) p = Some x /\ place s v p = At v x) \/ (p = length (nview s v) /\ place s v p = Past v).
Proof.
  intros s v p L. destruct (nth_error (nview s v) p) as [x|] eqn:E.
  - left. exists x. split; auto. apply place_at. auto.
  - right. apply nth_error_None in E. split; [lia|]. apply place_end. auto.
Qed.

Lemma nat_ok : forall s e I i v, nstands lt s e I -> whose (I i) = Some v ->
  exists p, n_at s i = Ok (v, p) /\ (p <= length (nview s v))%nat /\ I i = place s v p.
Proof.
  intros s e I i v S W. pose proof (nt_cur _ _ _ _ S i) as C. unfold n_at. destruct (I i) as [|u x|u|] eqn:E; cbn in W; inversion W; subst u.
  - destruct C as (a & C1 & C2). rewrite C1. destruct (nt_own _ _ _ _ S _ _ _ C2) as (-> & _).
    apply In_nth_error in C2. destruct C2 as (p & C2). exists p. rewrite (find_at _ p a); [|apply S|rewrite nth_error_map, C2; auto].
    split; auto. assert (N : nth_error (nview s v) p = Some x) by (unfold nview; rewrite nth_error_map, C2; auto).
    split; [apply Nat.lt_le_incl, nth_error_Some; congruence|]. symmetry. apply place_at. auto.
  - rewrite C, Nat.eqb_refl. exists (length (nd s v)). split; auto. rewrite view_len. split; auto. symmetry. apply place_end. rewrite view_len. auto.
Qed.
Lemma nat_bad : forall s e I i, nstands lt s e I -> whose (I i) = None -> n_at s i = UB BadDeref.
Proof.
  intros s e I i S W. pose proof (nt_cur _ _ _ _ S i) as C. unfold n_at. destruct (I i) as [|u x|u|] eqn:E; cbn in W; try discriminate.
  - rewrite C. auto.
  - destruct (ni s i) as [|a|v n]; auto.
    + rewrite find_not; auto. intros X. apply in_map_iff in X. destruct X as ((x & b) & X1 & X2). cbn in X1. subst b. destruct C as (_ & C). eapply C; eauto.
    + destruct (Nat.eqb_spec n (ng s v)); auto. lia.
Qed.
Lemma nput_ok : forall s e I I' i v p, nstands lt s e I -> put I i (place s v p) I' -> nstands lt (n_put i v p s) e I'.
Proof.
  intros s e I I' i v p S (E & F). split; cbn [n_put nd nc no ng ni]; try apply S.
  intros j. unfold nset at 1 2 3 4. destruct (Nat.eqb_spec j i).
  - subst. rewrite E. unfold place. destruct (nth_error (nd s v) p) as [(x, a)|] eqn:N; auto. exists a. split; auto. eapply nth_error_In; eauto.
  - rewrite F by auto. apply S.
Qed.

(** *** The order of places *)
Section Places.
Variables (s : nstate T) (e : zstore T) (v : nat).
Hypothesis V : stands lt (nview s) e.
Notation l := (nview s v).

Lemma pinc : increasing lt l. Proof. apply V. Qed.
Lemma pin : forall y, In y l <-> e v y. Proof. apply V. Qed.
Lemma pnodup : NoDup l. Proof. apply (inc_nodup lt O), pinc. Qed.

Lemma skip_cons : forall (A : Type) p (m : list A) x, nth_error m p = Some x -> skipn p m = x :: skipn (Datatypes.S p) m.
Proof. induction p as [|p IH]; intros [|y m] x E; try discriminate; cbn in E |- *; [inversion E; auto|]. rewrite (IH _ _ E). auto. Qed.

Lemma in_skipn : forall (A : Type) n (m : list A) y, In y (skipn n m) -> In y m.
Proof. intros A n m y Y. rewrite <- (firstn_skipn n m). apply in_or_app. auto. Qed.
Lemma in_firstn : forall (A : Type) n (m : list A) y, In y (firstn n m) -> In y m.
Proof. intros A n m y Y. rewrite <- (firstn_skipn n m). apply in_or_app. auto. Qed.
Lemma sorted_split : forall p y z, In y (firstn p l) -> In z (skipn p l) -> lt y z = true.
Proof. intros p y z Y Z. pose proof pinc as P. rewrite <- (firstn_skipn p l) in P. apply (inc_app lt) in P. destruct P as (_ & _ & P). auto. Qed.
Lemma in_split2 : forall p y, In y l <-> In y (firstn p l) \/ In y (skipn p l).
Proof. intros p y. rewrite <- in_app_iff, firstn_skipn. tauto. Qed.
Lemma skip_at : forall p x y, nth_error l p = Some x -> (In y (skipn p l) <-> In y l /\ (y = x \/ lt x y = true)).
Proof.
  intros p x y E. rewrite (in_split2 p y). rewrite (skip_cons _ _ _ _ E). split.
  - intros X. split; auto. destruct X as [X|X]; [auto|]. right. pose proof pinc as P. rewrite <- (firstn_skipn p l), (skip_cons _ _ _ _ E) in P.
    apply (inc_app lt) in P. destruct P as (_ & P & _). apply inc_cons in P; auto. apply P. auto.
  - intros ([X|X] & Y); auto. assert (Z : lt y x = true) by (apply (sorted_split p); auto; rewrite (skip_cons _ _ _ _ E); left; auto).
    destruct Y as [Y|Y]; [subst; rewrite (lt_irr lt O) in Z; discriminate|]. rewrite (lt_asym lt O _ _ Y) in Z. discriminate.
Qed.
Lemma first_at : forall p x y, nth_error l p = Some x -> (In y (firstn p l) <-> In y l /\ lt y x = true).
Proof.
  intros p x y E. split.
  - intros X. split; [apply (in_split2 p); auto|]. apply (sorted_split p); auto. rewrite (skip_cons _ _ _ _ E). left. auto.
  - intros (X & Y). apply (in_split2 p) in X. destruct X as [X|X]; auto. apply (skip_at p x) in X; auto.
    destruct X as (_ & [->|X]); [rewrite (lt_irr lt O) in Y|rewrite (lt_asym lt O _ _ X) in Y]; discriminate.
Qed.

Lemma in_first : forall p y, (p <= length l)%nat -> (In y (firstn p l) <-> e v y /\ until lt (place s v p) y).
Proof.
  intros p y L. destruct (place_cases s v p L) as [(x & E & ->)|(-> & ->)]; cbn [until].
  - rewrite (first_at p x y E), pin. tauto.
  - rewrite firstn_all, pin. tauto.
Qed.
Lemma in_skip : forall p y, (p <= length l)%nat -> (In y (skipn p l) <-> e v y /\ from lt (place s v p) y).
Proof.
  intros p y L. destruct (place_cases s v p L) as [(x & E & ->)|(-> & ->)]; cbn [from].
  - rewrite (skip_at p x y E), pin. tauto.
  - rewrite skipn_all. cbn. tauto.
Qed.
Lemma inc_firstn : forall p, increasing lt (firstn p l).
Proof. intros p. pose proof pinc as P. rewrite <- (firstn_skipn p l) in P. apply (inc_app lt) in P. apply P. Qed.
Lemma inc_skipn : forall p, increasing lt (skipn p l).
Proof. intros p. pose proof pinc as P. rewrite <- (firstn_skipn p l) in P. apply (inc_app lt) in P. apply P. Qed.

Lemma skip_next : forall p x, nth_error l p = Some x -> enumerates lt (skipn (Datatypes.S p) l) (both (e v) (fun y => lt x y = true)).
Proof.
  intros p x E. split; [apply inc_skipn|]. intros y. unfold both. rewrite <- pin.
  assert (Q : In y (skipn p l) <-> In y l /\ (y = x \/ lt x y = true)) by (apply skip_at; auto). rewrite (skip_cons _ _ _ _ E) in Q. cbn [In] in Q.
  assert (N : ~ In x (skipn (Datatypes.S p) l)).
  { pose proof (inc_skipn p) as X. rewrite (skip_cons _ _ _ _ E) in X. apply (head_fresh lt O) in X. auto. }
  split.
  - intros X. destruct (proj1 Q (or_intror X)) as (X1 & [->|X2]); [contradiction|auto].
  - intros (X1 & X2). destruct (proj2 Q (conj X1 (or_intror X2))) as [X|X]; auto. subst. rewrite (lt_irr lt O) in X2. discriminate.
Qed.

Lemma leading_unique : forall Q x y, leading lt e v Q x -> leading lt e v Q y -> x = y.
Proof.
  intros Q x y [(a & A & ->)|(A & ->)] [(b & B & ->)|(B & ->)]; auto.
  - f_equal. eapply (least_unique lt O); eauto.
  - destruct A as (A & _). destruct (B _ A).
  - destruct B as (B & _). destruct (A _ B).
Qed.
Lemma lead_place : forall p Q, (p <= length l)%nat -> enumerates lt (skipn p l) (both (e v) Q) -> leading lt e v Q (place s v p).
Proof.
  intros p Q L E. destruct (place_cases s v p L) as [(x & N & ->)|(-> & ->)].
  - left. exists x. split; auto. rewrite (skip_cons _ _ _ _ N) in E. eapply head_least; eauto.
  - right. split; auto. rewrite skipn_all in E. apply (enum_nil lt _ _ E). auto.
Qed.
Lemma prev_place : forall p x, nth_error l p = Some x -> greatest lt (both (e v) (until lt (place s v (Datatypes.S p)))) x.
Proof.
  intros p x N. assert (L : (Datatypes.S p <= length l)%nat) by (apply nth_error_Some; congruence).
  apply (last_greatest lt x (firstn p l)). assert (E : firstn p l ++ [x] = firstn (Datatypes.S p) l).
  { clear L. revert N. generalize l. induction p as [|p IH]; intros [|y m] N; try discriminate; cbn in N |- *; [inversion N; auto|]. f_equal. apply IH. auto. }
  rewrite E. split; [apply inc_firstn|]. intros y. apply in_first. auto.
Qed.
Lemma first_before : nothing (both (e v) (until lt (place s v 0))).
Proof. intros y (A & B). destruct (proj2 (in_first 0 y ltac:(lia)) (conj A B)). Qed.

Lemma place_order : forall p q, (p <= length l)%nat -> (q <= length l)%nat -> (ordered lt (place s v p) (place s v q) <-> (p <= q)%nat).
Proof.
  intros p q P Q. destruct (place_cases s v p P) as [(x & N & ->)|(-> & ->)], (place_cases s v q Q) as [(y & M & ->)|(-> & ->)]; cbn [ordered].
  - split.
    + intros H. destruct (Nat.le_gt_cases p q) as [X|X]; auto. exfalso.
      assert (Y : In y (firstn p l)). { apply nth_error_In with q. rewrite nth_error_firstn_in by lia. auto. }
      apply (first_at p x) in Y; auto. destruct Y as (_ & Y). destruct H as [->|H]; [rewrite (lt_irr lt O) in Y|rewrite (lt_asym lt O _ _ H) in Y]; discriminate.
    + intros H. assert (Y : In y (skipn p l)). { apply nth_error_In with (q - p)%nat. rewrite nth_error_skipn_in. replace (p + (q - p))%nat with q by lia. auto. }
      apply (skip_at p x) in Y; auto. destruct Y as (_ & [->|Y]); auto.
  - split; auto.
  - assert (q < length l)%nat by (apply nth_error_Some; congruence). split; [tauto|lia].
  - split; auto.
Qed.
Lemma place_eq : forall p q, (p <= length l)%nat -> (q <= length l)%nat -> (place s v p = place s v q <-> p = q).
Proof.
  intros p q P Q. split; [|congruence]. intros E. assert (R : forall r, (r <= length l)%nat -> ordered lt (place s v r) (place s v r)) by (intros; apply place_order; auto).
  assert (p <= q)%nat by (apply place_order; auto; rewrite E; auto). assert (q <= p)%nat by (apply place_order; auto; rewrite E; auto). lia.
Qed.
Lemma range_place : forall p q, (p <= q)%nat -> (q <= length l)%nat ->
  enumerates lt (firstn (q - p) (skipn p l)) (fun y => e v y /\ from lt (place s v p) y /\ until lt (place s v q) y).
Proof.
  intros p q L M. assert (X : firstn (q - p) (skipn p l) = skipn p (firstn q l)) by (rewrite firstn_skipn_comm; do 2 f_equal; lia).
  split.
  - pose proof (inc_skipn p) as P. rewrite <- (firstn_skipn (q - p) (skipn p l)) in P. apply (inc_app lt) in P. apply P.
  - intros y. assert (A := in_first q y M). assert (B := in_skip p y ltac:(lia)).
    assert (C : In y (firstn (q - p) (skipn p l)) <-> In y (firstn q l) /\ In y (skipn p l)); [|tauto]. split.
    + intros Y. split; [rewrite X in Y; eapply in_skipn; eauto|eapply in_firstn; eauto].
    + intros (Y1 & Y2). rewrite <- (firstn_skipn (q - p) (skipn p l)) in Y2. apply in_app_or in Y2. destruct Y2 as [Y2|Y2]; auto. exfalso.
      rewrite skipn_skipn in Y2. replace (q - p + p)%nat with q in Y2 by lia. pose proof (sorted_split q y y Y1 Y2) as Z. rewrite (lt_irr lt O) in Z. discriminate.
Qed.
Lemma find_place : forall x, (n_find lt x (nd s v) <= length l)%nat /\ ((e v x /\ place s v (n_find lt x (nd s v)) = At v x) \/ (~ e v x /\ place s v (n_find lt x (nd s v)) = Past v)).
Proof.
  intros x. unfold n_find. pose proof (lower_view x 0 (nd s v)) as W. destruct (lower_bound (nlt lt) (x, 0%nat) (nd s v)) as [a b] eqn:E. cbn [fst snd] in W.
  destruct (lower_in lt O x _ _ _ pinc W) as (F & G). rewrite pin in G. pose proof (lower_app _ _ _ _ E) as L. rewrite view_len. destruct b as [|y b]; cbn [map] in *.
  - split; auto. right. split; [tauto|]. apply place_end. rewrite view_len. auto.
  - destruct (lt x (fst y)) eqn:C.
    + split; auto. right. split; [intros X; apply G in X; discriminate|]. apply place_end. rewrite view_len. auto.
    + split; [rewrite L, app_length; lia|]. left. split; [apply G; auto|]. rewrite <- (F eq_refl). unfold place. rewrite L, nth_error_app2, Nat.sub_diag by lia. auto.
Qed.
End Places.

(** ** Statements with iterators *)
Lemma between_place : forall s e u p q l, stands lt (nview s) e -> (p <= length (nview s u))%nat -> (q <= length (nview s u))%nat ->
  between lt e u (place s u p) (place s u q) l -> (p <= q)%nat /\ l = firstn (q - p) (skipn p (nview s u)).
Proof.
  intros s e u p q l V P Q (_ & _ & OR & E). assert (L : (p <= q)%nat) by (apply (place_order s e u V) in OR; auto). split; auto.
  eapply (enum_unique lt O); [exact E|apply (range_place s e u V p q L Q)|]. intros y. tauto.
Qed.
Lemma nrange_ok : forall s e I i j u l, nstands lt s e I -> between lt e u (I i) (I j) l -> n_range s i j = Ok (u, l) /\ (length l <= length (nview s u))%nat.
Proof.
  intros s e I i j u l S B. assert (B' := B). destruct B' as (W1 & W2 & _).
  destruct (nat_ok s e I i u S W1) as (p & P1 & P2 & P3). destruct (nat_ok s e I j u S W2) as (q & Q1 & Q2 & Q3).
  rewrite P3, Q3 in B. destruct (between_place s e u p q l (nt_sets _ _ _ _ S) P2 Q2 B) as (L & ->). unfold n_range. rewrite P1, Q1. cbn [bind fst snd].
  rewrite Nat.eqb_refl. destruct (Nat.leb_spec p q); [|lia]. cbn [andb]. split; auto. rewrite firstn_length, skipn_length. lia.
Qed.
Lemma nview_small : forall s e v, stands lt (nview s) e -> len (nview s v) <= INT_MAX.
Proof. intros s e v V. apply V. Qed.

Lemma nelem_at : forall s v p x, place s v p = At v x -> n_elem s v p = Ok x.
Proof. intros s v p x E. unfold place in E. unfold n_elem. destruct (nth_error (nd s v) p) as [(y, a)|]; inversion E; auto. Qed.
Lemma nelem_past : forall s v p, place s v p = Past v -> n_elem s v p = UB BadDeref.
Proof. intros s v p E. unfold place in E. unfold n_elem. destruct (nth_error (nd s v) p) as [(y, a)|]; inversion E; auto. Qed.
Lemma nread_at : forall s e I i v x, nstands lt s e I -> I i = At v x -> exists p, n_at s i = Ok (v, p) /\ n_elem s v p = Ok x /\ nth_error (nview s v) p = Some x.
Proof.
  intros s e I i v x S E. destruct (nat_ok s e I i v S) as (p & P1 & P2 & P3); [rewrite E; auto|]. exists p. split; auto. rewrite E in P3. symmetry in P3.
  split; [apply nelem_at; auto|]. destruct (place_cases s v p P2) as [(y & N & Q)|(_ & Q)]; rewrite P3 in Q; inversion Q; subst; auto.
Qed.
Lemma nread_past : forall s e I i v, nstands lt s e I -> I i = Past v -> exists p, n_at s i = Ok (v, p) /\ n_elem s v p = UB BadDeref.
Proof.
  intros s e I i v S E. destruct (nat_ok s e I i v S) as (p & P1 & P2 & P3); [rewrite E; auto|]. exists p. split; auto. apply nelem_past. congruence.
Qed.

Lemma init_order : forall l m, (forall x : T, In x l <-> In x m) -> set_of lt l = set_of lt m.
Proof. intros l m E. eapply (enum_unique lt O); [apply (of_enum lt O)|apply (of_enum lt O)|]. intros x. apply E. Qed.

Lemma gt_until : forall s e I i v p y, nstands lt s e I -> I i = place s v p -> (p <= length (nview s v))%nat -> greatest lt (both (e v) (until lt (I i))) y ->
  exists q, p = Datatypes.S q /\ nth_error (nview s v) q = Some y.
Proof.
  intros s e I i v p y S E L G. pose proof (nt_sets _ _ _ _ S) as V. rewrite E in G. destruct p as [|q].
  - destruct G as (G & _). destruct (first_before s e v V y G).
  - exists q. split; auto. destruct (nth_error (nview s v) q) as [z|] eqn:N; [|apply nth_error_None in N; lia].
    f_equal. eapply (greatest_unique lt O); [apply (prev_place s e v V q z N)|auto].
Qed.

Theorem nstep_ok : forall c s e I e' I' ev, nstands lt s e I -> nint_stmt c -> ns c e I e' I' ev -> exists s', nstp c s = Ok (s', ev) /\ nstands lt s' e' I'.
Proof.
  intros c s e I e' I' ev S A H. revert s S A. induction H; intros s S A; cbn [n_step]; pose proof (nt_sets _ _ _ _ S) as V.
  - eapply ndo_complete; eauto.
  - eexists; split; [reflexivity|]. eapply nput_ok; eauto. destruct (find_place s e v V x) as (_ & [(_ & ->)|(X & _)]); [auto|contradiction].
  - eexists; split; [reflexivity|]. eapply nput_ok; eauto. destruct (find_place s e v V x) as (_ & [(X & _)|(_ & ->)]); [contradiction|auto].
  - eexists; split; [reflexivity|]. eapply nput_ok; eauto. replace (place s v 0) with x; auto. eapply leading_unique; eauto.
    apply lead_place; auto; [lia|]. cbn [skipn]. destruct (V v) as (E & _). eapply enum_same; eauto. unfold same, both. tauto.
  - eexists; split; [reflexivity|]. eapply nput_ok; eauto. rewrite place_end; auto. rewrite view_len. auto.
  - destruct (I j) as [|v x|v|] eqn:E; cbn in H; try contradiction;
      (destruct (nat_ok s e I j v S) as (p & P1 & P2 & P3); [rewrite E; auto|]); rewrite P1; cbn [bind fst snd]; eexists; (split; [reflexivity|]); eapply nput_ok; eauto; rewrite <- P3, E; auto.
  - destruct (nread_at s e I i v x S H) as (p & P1 & P2 & P3). rewrite P1. cbn [bind fst snd]. rewrite P2. cbn [bind]. eexists; split; [reflexivity|]. eapply nput_ok; eauto.
    replace (place s v (Datatypes.S p)) with y; auto. eapply leading_unique; eauto. apply lead_place; auto; [apply nth_error_Some; congruence|]. apply skip_next; auto.
  - destruct (nat_ok s e I i v S H) as (p & P1 & P2 & P3). rewrite P1. cbn [bind fst snd]. destruct (gt_until s e I i v p y S P3 P2 H0) as (q & -> & N).
    eexists; split; [reflexivity|]. eapply nput_ok; eauto. rewrite (place_at _ _ _ _ N). auto.
  - destruct (nread_at s e I i v x S H) as (p & P1 & P2 & P3). rewrite P1. cbn [bind fst snd]. rewrite P2. cbn [bind]. eauto.
  - destruct (nat_ok s e I i v S H) as (p & P1 & P2 & P3). rewrite P1. cbn [bind fst snd]. destruct (gt_until s e I i v p y S P3 P2 H0) as (q & -> & N).
    rewrite (nelem_at s v q y) by (apply place_at; auto). cbn [bind]. eauto.
  - destruct (nat_ok s e I i v S H) as (p & P1 & P2 & P3). destruct (nat_ok s e I j v S H0) as (q & Q1 & Q2 & Q3). rewrite P1, Q1. cbn [bind fst snd].
    rewrite Nat.eqb_refl. replace (Nat.eqb p q) with b; eauto. unfold tells in H1. rewrite P3, Q3, (place_eq s e v V) in H1 by auto.
    destruct (Nat.eqb_spec p q), b; auto; [apply H1; auto|]. destruct n. apply H1. auto.
  - destruct (nread_at s e I i u x S H) as (p & P1 & P2 & P3). rewrite P1. cbn [bind fst snd]. rewrite P2. cbn [bind]. apply (IHnspec s S). exact Logic.I.
  - destruct (nread_at s e I i u x S H) as (p & P1 & P2 & P3). rewrite P1. cbn [bind fst snd]. rewrite P2. cbn [bind]. apply (IHnspec s S). exact Logic.I.
  - destruct (nread_at s e I i u x S H) as (p & P1 & P2 & P3). rewrite P1. cbn [bind fst snd]. rewrite P2. cbn [bind]. apply (IHnspec s S). exact Logic.I.
  - destruct (nread_at s e I i u x S H) as (p & P1 & P2 & P3). rewrite P1. cbn [bind fst snd]. rewrite P2. cbn [bind]. rewrite H0. apply (IHnspec s S). exact Logic.I.
  - destruct (nread_at s e I i u x S H) as (p & P1 & P2 & P3). rewrite P1. cbn [bind fst snd]. rewrite P2. cbn [bind]. rewrite H0. eauto.
  - destruct (nrange_ok s e I i j u l S H) as (-> & L). cbn [bind fst snd]. apply (IHnspec s S). cbn. pose proof (nview_small s e u V) as X. unfold len in X. lia.
  - destruct (nrange_ok s e I j i u l S H) as (-> & L). cbn [bind fst snd]. cbn [n_do n_step] in *. rewrite (init_order (rev l) l) by (intros x; rewrite <- in_rev; tauto).
    apply (IHnspec s S). cbn. pose proof (nview_small s e u V) as X. unfold len in X. lia.
  - destruct (nrange_ok s e I i j u l S H) as (-> & L). cbn [bind fst snd]. destruct (IHnspec s S Logic.I) as (s' & E & S'). cbn [n_step] in E.
    destruct (Nat.eqb_spec u v); [contradiction|]. unfold n_guard. destruct (len l <=? INT_MAX - size (nd s v)) eqn:G; [eauto|].
    cbn [n_do] in E. unfold n_guard in E. rewrite G in E. inversion E; subst. eauto.
  - destruct (nrange_ok s e I i j u l S H) as (-> & L). cbn [bind fst snd]. unfold n_guard. rewrite (n_size s e v V).
    rewrite (enum_len lt O _ _ _ (proj1 (V v)) H0) in H1. destruct (Z.leb_spec (len l) (INT_MAX - len (nview s v))) as [G|G]; [unfold len in *; lia|]. eauto.
Qed.

(** ** What can be done, and what cannot *)
Lemma holds_dec : forall (s : tstore T) e v x, stands lt s e -> {e v x} + {~ e v x}.
Proof.
  intros s e v x V. destruct (std_contains lt x (s v)) eqn:C.
  - left. apply V. apply (contains_ok lt O); auto. apply V.
  - right. intros X. apply V in X. apply (contains_ok lt O) in X; [congruence|apply V].
Qed.
Lemma fit_dec2 : forall (s : tstore T) e v w, stands lt s e -> {fit (e v) (e w)} + {~ fit (e v) (e w)}.
Proof. intros s e v w V. destruct (Z_le_gt_dec (len (s v) + len (s w)) INT_MAX); [left|right]; rewrite (fit_ok lt O s); auto; lia. Qed.
Lemma assigned_dec : forall c (s : tstore T) e v, stands lt s e -> {assigned c e v} + {~ assigned c e v}.
Proof.
  intros c s e v V. destruct c; cbn [assigned]; try apply Nat.eq_dec; try (right; tauto);
    try (match goal with |- {?u = v /\ fit (e ?a) (e ?b)} + {_} => destruct (Nat.eq_dec u v), (fit_dec2 s e a b V); [left; auto|right; tauto|right; tauto|right; tauto] end).
  destruct (Nat.eq_dec v0 v), (Nat.eq_dec v0 w); [right; tauto|left; auto|right; tauto|right; tauto].
Qed.

(** Where an iterator goes. *)
Definition goes (c : tstmt T) e e' (D1 : forall v, {assigned c e v} + {~ assigned c e v}) (D2 : forall v x, {e' v x} + {~ e' v x}) (x : cur T) : cur T :=
  match x with
  | At v y => match c with
              | TMove u w => if Nat.eqb v u then Dead else if Nat.eqb v w then At u y else if D2 v y then At v y else Dead
              | _ => if D1 v then Dead else if D2 v y then At v y else Dead
              end
  | Past v => match c with
              | TMove u w => if Nat.eqb v u || Nat.eqb v w then Dead else Past v
              | _ => if D1 v then Dead else Past v
              end
  | x => x
  end.
Lemma nafter_total : forall c e e' I (s s' : tstore T), stands lt s e -> stands lt s' e' -> exists I', nafter c e e' I I'.
Proof.
  intros c e e' I s s' V V'. pose (D1 := fun v => assigned_dec c s e v V). pose (D2 := fun v x => holds_dec s' e' v x V').
  exists (fun i => goes c e e' D1 D2 (I i)). intros i. destruct (I i) as [|v x|v|]; cbn [goes]; auto; unfold handed.
  - destruct c; try (destruct (D1 v) as [A|A]; [left; auto|right; right; split; [auto|split; [split; discriminate|destruct (D2 v x); auto]]]; fail).
    destruct (Nat.eqb_spec v v0); [subst; left; split; eauto|]. destruct (Nat.eqb_spec v w); [subst; right; left; eauto|]. right. right. cbn [assigned].
    split; [tauto|]. split; [intros u; split; congruence|]. destruct (D2 v x); auto.
  - destruct c; try (destruct (D1 v) as [A|A]; [left; auto|right; split; [auto|split; [split; discriminate|auto]]]; fail).
    destruct (Nat.eqb_spec v v0); [subst; left; split; eauto|]. destruct (Nat.eqb_spec v w); [subst; left; split; eauto|]. right. cbn [assigned orb].
    split; [tauto|]. split; [intros u; split; congruence|]. auto.
Qed.

Lemma ndo_cases : forall c s e I, nstands lt s e I -> tint_stmt c ->
  (exists e' I' ev, ns (NDo c) e I e' I' ev) \/ (nrisk lt (NDo c) e I /\ ndo c s = UB SelfRange).
Proof.
  intros c s e I S A. pose proof (nt_sets _ _ _ _ S) as V.
  assert (G : (exists e' ev, zspec c e e' ev) -> exists e' I' ev, ns (NDo c) e I e' I' ev).
  { intros (e' & ev & Z). destruct (zcomplete lt eqb show O D _ _ _ _ _ V A Z) as (t & _ & V'). destruct (nafter_total c e e' I _ _ V V') as (I' & AF).
    exists e', I', ev. constructor; auto. }
  destruct (ztotal lt eqb show O D c (nview s) e V) as [Z|[(v & ->)|(v & ->)]]; auto.
  - right. cbn [nrisk n_do]. rewrite Nat.eqb_refl. auto.
  - destruct (fit_dec2 _ e v v V) as [F|F].
    + right. cbn [nrisk n_do]. split; auto. rewrite Nat.eqb_refl. unfold n_guard. rewrite !(n_size s e v V). apply (fit_ok lt O _ _ _ _ V) in F.
      destruct (Z.leb_spec (len (nview s v)) (INT_MAX - len (nview s v))); [auto|lia].
    + left. apply G. do 2 eexists. apply z_extend_set_no. auto.
Qed.

Lemma whose_dec : forall (x : cur T), (exists v, whose x = Some v) \/ whose x = None.
Proof. intros [|v y|v|]; cbn; eauto. Qed.
Lemma whose_usable : forall x : cur T, usable x <-> exists v, whose x = Some v.
Proof. intros [|v y|v|]; cbn; split; eauto; try tauto; intros (u & X); discriminate. Qed.
Lemma at_dec : forall s e I i, nstands lt s e I -> (exists v x, I i = At v x) \/ (~ at_element (I i) /\ (n_at s i = UB BadDeref \/ exists v p, n_at s i = Ok (v, p) /\ n_elem s v p = UB BadDeref)).
Proof.
  intros s e I i S. destruct (I i) as [|v x|v|] eqn:E; eauto; right.
  - split; [intros (v & x & X); discriminate|]. left. eapply nat_bad; eauto. rewrite E. auto.
  - split; [intros (u & x & X); discriminate|]. right. destruct (nread_past s e I i v S E) as (p & P1 & P2). eauto.
  - split; [intros (v & x & X); discriminate|]. left. eapply nat_bad; eauto. rewrite E. auto.
Qed.
Lemma range_dec : forall s e I i j, nstands lt s e I -> (exists u l, between lt e u (I i) (I j) l) \/ (~ is_range lt (I i) (I j) /\ n_range s i j = UB BadDeref).
Proof.
  intros s e I i j S. pose proof (nt_sets _ _ _ _ S) as V. unfold n_range.
  destruct (whose_dec (I i)) as [(u & W1)|W1]; [|right; rewrite (nat_bad s e I i S W1); split; auto; intros (v & X & _); congruence].
  destruct (nat_ok s e I i u S W1) as (p & P1 & P2 & P3). rewrite P1. cbn [bind fst snd].
  destruct (whose_dec (I j)) as [(w & W2)|W2]; [|right; rewrite (nat_bad s e I j S W2); split; auto; intros (v & _ & X & _); congruence].
  destruct (nat_ok s e I j w S W2) as (q & Q1 & Q2 & Q3). rewrite Q1. cbn [bind fst snd].
  destruct (Nat.eqb_spec u w) as [->|N]; [|right; split; auto; intros (v & X & Y & _); congruence].
  destruct (Nat.leb_spec p q) as [L|L]; cbn [andb].
  - left. exists w. eexists. split; [auto|]. split; [auto|]. rewrite P3, Q3. split; [apply (place_order s e w V); auto|]. apply (range_place s e w V p q L Q2).
  - right. split; auto. intros (v & _ & _ & OR). rewrite P3, Q3 in OR. apply (place_order s e w V) in OR; auto. lia.
Qed.

Theorem nstep_cases : forall c s e I, nstands lt s e I -> nint_stmt c ->
  (exists e' I' ev, ns c e I e' I' ev) \/ (nrisk lt c e I /\ exists u, nstp c s = UB u).
Proof.
  intros c s e I S A. pose proof (nt_sets _ _ _ _ S) as V.
  assert (PUT : forall i x, exists I', put I i x I').
  { intros i x. exists (nset I i x). split; unfold nset; [rewrite Nat.eqb_refl; auto|]. intros j N. destruct (Nat.eqb_spec j i); [contradiction|auto]. }
  destruct c; cbn [nint_stmt nrisk n_step] in *.
  - destruct (ndo_cases c s e I S A) as [X|(X & Y)]; eauto.
  - left. destruct (holds_dec _ e v x V) as [X|X]; [destruct (PUT i (At v x)) as (I' & P)|destruct (PUT i (Past v)) as (I' & P)]; do 3 eexists; [apply ns_find|apply ns_find_absent]; eauto.
  - left. destruct (PUT i (place s v 0)) as (I' & P). do 3 eexists. eapply ns_begin; eauto. apply lead_place; auto; [lia|]. cbn [skipn]. destruct (V v) as (E & _).
    eapply enum_same; eauto. unfold same, both. tauto.
  - left. destruct (PUT i (Past v)) as (I' & P). do 3 eexists. eapply ns_end; eauto.
  - destruct (whose_dec (I j)) as [(v & W)|W].
    + left. destruct (PUT i (I j)) as (I' & P). do 3 eexists. eapply ns_copy; eauto. apply whose_usable. eauto.
    + right. rewrite whose_usable. split; [intros (v & X); congruence|]. rewrite (nat_bad s e I j S W). cbn [bind]. eauto.
  - destruct (at_dec s e I i S) as [(v & x & E)|(X & [Y|(v & p & Y1 & Y2)])].
    + left. destruct (nread_at s e I i v x S E) as (p & P1 & P2 & P3). destruct (PUT i (place s v (Datatypes.S p))) as (I' & P). do 3 eexists. eapply ns_next; eauto.
      apply lead_place; auto; [apply nth_error_Some; congruence|]. apply skip_next; auto.
    + right. split; auto. rewrite Y. cbn [bind]. eauto.
    + right. split; auto. rewrite Y1. cbn [bind fst snd]. rewrite Y2. cbn [bind]. eauto.
  - destruct (whose_dec (I i)) as [(v & W)|W].
    + destruct (nat_ok s e I i v S W) as (p & P1 & P2 & P3). destruct p as [|p].
      * right. split; [|rewrite P1; cbn; eauto]. intros (u & y & U & B1 & B2). assert (u = v) by congruence. subst. rewrite P3 in B2. eapply (first_before s e v V); split; eauto.
      * left. destruct (nth_error (nview s v) p) as [y|] eqn:N; [|apply nth_error_None in N; lia]. destruct (PUT i (At v y)) as (I' & P).
        do 3 eexists. eapply ns_prev; eauto. rewrite P3. apply prev_place; auto.
    + right. split; [intros (u & y & U & _); congruence|]. rewrite (nat_bad s e I i S W). cbn [bind]. eauto.
  - destruct (at_dec s e I i S) as [(v & x & E)|(X & [Y|(v & p & Y1 & Y2)])].
    + left. do 3 eexists. eapply ns_read; eauto.
    + right. split; auto. rewrite Y. cbn [bind]. eauto.
    + right. split; auto. rewrite Y1. cbn [bind fst snd]. rewrite Y2. cbn [bind]. eauto.
  - destruct (whose_dec (I i)) as [(v & W)|W].
    + destruct (nat_ok s e I i v S W) as (p & P1 & P2 & P3). destruct p as [|p].
      * right. split; [|rewrite P1; cbn; eauto]. intros (u & y & U & B1 & B2). assert (u = v) by congruence. subst. rewrite P3 in B2. eapply (first_before s e v V); split; eauto.
      * left. destruct (nth_error (nview s v) p) as [y|] eqn:N; [|apply nth_error_None in N; lia].
        do 3 eexists. apply (ns_back lt show i v e I y); auto. rewrite P3. apply prev_place; auto.
    + right. split; [intros (u & y & U & _); congruence|]. rewrite (nat_bad s e I i S W). cbn [bind]. eauto.
  - destruct (whose_dec (I i)) as [(u & W1)|W1]; [|right; rewrite (nat_bad s e I i S W1); split; [|cbn [bind]; eauto]; intros (v & X & _); congruence].
    destruct (nat_ok s e I i u S W1) as (p & P1 & P2 & P3). rewrite P1. cbn [bind fst snd].
    destruct (whose_dec (I j)) as [(w & W2)|W2]; [|right; rewrite (nat_bad s e I j S W2); split; [|cbn [bind]; eauto]; intros (v & _ & X); congruence].
    destruct (nat_ok s e I j w S W2) as (q & Q1 & Q2 & Q3). rewrite Q1. cbn [bind fst snd].
    destruct (Nat.eqb_spec u w) as [->|N]; [|right; split; eauto; intros (v & X & Y); congruence].
    left. do 3 eexists. apply (ns_same lt show i j w (Nat.eqb p q)); auto. rewrite P3, Q3. unfold tells. rewrite (place_eq s e w V) by auto. apply Nat.eqb_eq.
  - destruct (at_dec s e I i S) as [(u & x & E)|(X & [Y|(u & p & Y1 & Y2)])].
    + left. destruct (ndo_cases (TAdd v x) s e I S Logic.I) as [(e' & I' & ev & N)|([] & _)]. do 3 eexists. eapply ns_add; eauto.
    + right. split; auto. rewrite Y. cbn [bind]. eauto.
    + right. split; auto. rewrite Y1. cbn [bind fst snd]. rewrite Y2. cbn [bind]. eauto.
  - destruct (at_dec s e I i S) as [(u & x & E)|(X & [Y|(u & p & Y1 & Y2)])].
    + left. destruct (ndo_cases (TAdd v (f x)) s e I S Logic.I) as [(e' & I' & ev & N)|([] & _)]. do 3 eexists. eapply ns_add_f; eauto.
    + right. split; auto. rewrite Y. cbn [bind]. eauto.
    + right. split; auto. rewrite Y1. cbn [bind fst snd]. rewrite Y2. cbn [bind]. eauto.
  - destruct (at_dec s e I i S) as [(u & x & E)|(X & [Y|(u & p & Y1 & Y2)])].
    + left. destruct (ndo_cases (TRemove v x) s e I S Logic.I) as [(e' & I' & ev & N)|([] & _)]. do 3 eexists. eapply ns_remove; eauto.
    + right. split; auto. rewrite Y. cbn [bind]. eauto.
    + right. split; auto. rewrite Y1. cbn [bind fst snd]. rewrite Y2. cbn [bind]. eauto.
  - destruct (at_dec s e I i S) as [(u & x & E)|(X & [Y|(u & p & Y1 & Y2)])].
    + left. destruct (f x) eqn:F; [|do 3 eexists; eapply ns_remove_not; eauto].
      destruct (ndo_cases (TRemove v x) s e I S Logic.I) as [(e' & I' & ev & N)|([] & _)]. do 3 eexists. eapply ns_remove_if; eauto.
    + right. split; auto. rewrite Y. cbn [bind]. eauto.
    + right. split; auto. rewrite Y1. cbn [bind fst snd]. rewrite Y2. cbn [bind]. eauto.
  - destruct (range_dec s e I i j S) as [(u & l & B)|(X & Y)]; [|right; split; auto; rewrite Y; cbn [bind]; eauto]. left.
    destruct (nrange_ok s e I i j u l S B) as (_ & L). pose proof (nview_small s e u V) as M. unfold len in M.
    destruct (ndo_cases (TInit v l) s e I S) as [(e' & I' & ev & N)|([] & _)]; [cbn; lia|]. do 3 eexists. eapply ns_range; eauto.
  - destruct (range_dec s e I j i S) as [(u & l & B)|(X & Y)]; [|right; split; auto; rewrite Y; cbn [bind]; eauto]. left.
    destruct (nrange_ok s e I j i u l S B) as (_ & L). pose proof (nview_small s e u V) as M. unfold len in M.
    destruct (ndo_cases (TInit v l) s e I S) as [(e' & I' & ev & N)|([] & _)]; [cbn; lia|]. do 3 eexists. eapply ns_rev_range; eauto.
  - destruct (range_dec s e I i j S) as [(u & l & B)|(X & Y)]; [|right; split; auto; rewrite Y; cbn [bind]; eauto].
    destruct (nrange_ok s e I i j u l S B) as (R & _). rewrite R. cbn [bind fst snd]. unfold n_guard. rewrite (n_size s e v V).
    pose proof (enum_card lt O _ _ (proj1 (V v))) as C. destruct (Z.leb_spec (len l) (INT_MAX - len (nview s v))) as [G|G].
    + destruct (Nat.eqb_spec u v) as [->|N].
      * right. split; eauto. right. exists l, (len (nview s v)). split; auto. split; auto. unfold len in *. lia.
      * left. destruct (ndo_cases (TExtend v l) s e I S Logic.I) as [(e' & I' & ev & N1)|([] & _)]. do 3 eexists. eapply ns_extend; eauto.
    + left. do 3 eexists. eapply ns_extend_no; eauto. unfold len in *. lia.
Qed.

Lemma between_range : forall e u a b (l : list T), between lt e u a b l -> is_range lt a b.
Proof. intros e u a b l (A & B & C & _). exists u. auto. Qed.
Lemma nrisk_not : forall c e I e' I' ev, ns c e I e' I' ev -> nrisk lt c e I -> False.
Proof.
  intros c e I e' I' ev H. induction H; cbn [nrisk]; intros R; auto.
  - destruct c; auto; inversion H; subst; try tauto; destruct R; congruence.
  - apply R. exists v, x. auto.
  - apply R. exists v, y. destruct H0 as ((A & B) & _). auto.
  - apply R. exists v, x. auto.
  - apply R. exists v, y. destruct H0 as ((A & B) & _). auto.
  - apply R. eauto.
  - apply R. exists u, x. auto.
  - apply R. exists u, x. auto.
  - apply R. exists u, x. auto.
  - apply R. exists u, x. auto.
  - apply R. exists u, x. auto.
  - apply R. eapply between_range; eauto.
  - apply R. eapply between_range; eauto.
  - destruct R as [R|(l' & n & (W & _) & _)]; [apply R; eapply between_range; eauto|]. destruct H as (W' & _). congruence.
  - destruct R as [R|(l' & m & B & C & L)]; [apply R; eapply between_range; eauto|]. assert (u = v) by (destruct B as (W & _), H as (W' & _); congruence). subst u.
    assert (l' = l). { destruct B as (_ & _ & _ & B), H as (_ & _ & _ & H). eapply (enum_unique lt O); eauto. intros y. tauto. }
    subst l'. rewrite (card_unique _ _ _ C H0) in L. lia.
Qed.
Theorem nstep_risk : forall c s e I, nstands lt s e I -> nint_stmt c -> ((exists u, nstp c s = UB u) <-> nrisk lt c e I).
Proof.
  intros c s e I S A. split.
  - intros (u & U). destruct (nstep_cases c s e I S A) as [(e' & I' & ev & N)|(R & _)]; auto. destruct (nstep_ok _ _ _ _ _ _ _ S A N) as (s' & E & _). congruence.
  - intros R. destruct (nstep_cases c s e I S A) as [(e' & I' & ev & N)|(_ & U)]; auto. destruct (nrisk_not _ _ _ _ _ _ N R).
Qed.

(** ** Programs *)
Notation run := (n_run lt eqb show).
Notation nr := (nrun lt show).

Theorem nrun_complete : forall prog s e I e' I' ev, nstands lt s e I -> Forall nint_stmt prog -> nr prog e I e' I' ev -> exists s', run prog s = Ok (s', ev) /\ nstands lt s' e' I'.
Proof.
  intros prog s e I e' I' ev S A H. revert s S A. induction H; intros s S A; cbn [n_run]; [eauto|]. inversion A; subst.
  destruct (nstep_ok _ _ _ _ _ _ _ S H3 H) as (s1 & E1 & S1). rewrite E1. cbn [bind fst snd]. destruct (IHnrun s1 S1 H4) as (s2 & E2 & S2). rewrite E2. cbn [bind fst snd]. eauto.
Qed.
Theorem nrun_cases : forall prog s e I, nstands lt s e I -> Forall nint_stmt prog ->
  (exists s' e' I' ev, run prog s = Ok (s', ev) /\ nr prog e I e' I' ev /\ nstands lt s' e' I') \/
  (exists u p c q e' I' ev, run prog s = UB u /\ prog = p ++ c :: q /\ nr p e I e' I' ev /\ nrisk lt c e' I').
Proof.
  induction prog as [|c prog IH]; intros s e I S A; cbn [n_run].
  - left. exists s, e, I, []. split; auto. split; auto. constructor.
  - inversion A; subst. destruct (nstep_cases c s e I S H1) as [(e1 & I1 & ev1 & N)|(R & u & U)].
    + destruct (nstep_ok _ _ _ _ _ _ _ S H1 N) as (s1 & E1 & S1). rewrite E1. cbn [bind fst snd].
      destruct (IH s1 e1 I1 S1 H2) as [(s2 & e2 & I2 & ev2 & E2 & R2 & S2)|(u & p & d & q & e2 & I2 & ev2 & E2 & Q & R2 & K)].
      * left. rewrite E2. cbn [bind fst snd]. exists s2, e2, I2, (ev1 ++ ev2). split; auto. split; auto. econstructor; eauto.
      * right. rewrite E2. cbn [bind]. exists u, (c :: p), d, q, e2, I2, (ev1 ++ ev2). split; auto. subst. split; auto. split; auto. econstructor; eauto.
    + right. rewrite U. cbn [bind]. exists u, [], c, prog, e, I, []. split; auto. split; auto. split; auto. constructor.
Qed.
Theorem nrun_refines : forall prog s e I s' ev, nstands lt s e I -> Forall nint_stmt prog -> run prog s = Ok (s', ev) -> exists e' I', nr prog e I e' I' ev /\ nstands lt s' e' I'.
Proof.
  intros prog s e I s' ev S A H. destruct (nrun_cases prog s e I S A) as [(s2 & e' & I' & ev2 & E & R & S2)|(u & p & c & q & e' & I' & ev2 & E & _)]; [|congruence].
  rewrite H in E. inversion E; subst. eauto.
Qed.
End Iter.
