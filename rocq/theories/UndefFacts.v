(** Exactly which calls on Deque, Set and Dict are undefined. *)
From Coq Require Import ZArith List Bool Ascii Lia.
From Verif Require Import Outcome ListModel ListSpec ListFacts ListMore DequeModel DequeSpec DequeFacts SetModel SetSpec SetFacts SetProg
  DictModel DictSpec DictFacts DictProg UndefSpec.
Import ListNotations.
Open Scope Z_scope.

Theorem dundef_exact : forall (T : Type) (eqb : T -> T -> bool) (show : T -> list ascii) c (s : dstore T), decides eqb -> dsized s -> dint_stmt c ->
  (exists u, dstep eqb show c s = UB u) <-> dundef c s.
Proof.
  intros T eqb show c s D S A. assert (L: forall v, len (s v) <= INT_MAX) by exact S. split.
  - intros (u & E). destruct (dstep_ub T eqb show c s u D S A E) as [(v & ->)|[(v & ->)|[(v & ->)|(v & ->)]]]; cbn [dundef]; auto; cbn [dstep] in E.
    + rewrite !size_ok in E by auto. destruct (Z.leb_spec (len (s v)) (INT_MAX - len (s v))); [|discriminate]. unfold len in *. lia.
    + rewrite !size_ok in E by auto. destruct (Z.leb_spec (len (s v)) (INT_MAX - len (s v))); [|discriminate]. unfold len in *. lia.
    + split; auto. destruct (Z_lt_dec 1 (len (s v))) as [|G]; auto. exfalso. unfold dcall in E. rewrite (deq_right_min T (s v) (L v)) in E.
      destruct (Z.leb_spec (len (s v)) 1); [discriminate|lia].
  - intros U. destruct c; cbn [dundef] in U; try contradiction; cbn [dstep].
    + subst. rewrite Nat.eqb_refl. eauto.
    + destruct U as (-> & U). rewrite !size_ok by auto. destruct (Z.leb_spec (len (s w)) (INT_MAX - len (s w))); [|unfold len in *; lia]. rewrite Nat.eqb_refl. eauto.
    + destruct U as (-> & U). rewrite !size_ok by auto. destruct (Z.leb_spec (len (s w)) (INT_MAX - len (s w))); [|unfold len in *; lia]. rewrite Nat.eqb_refl. eauto.
    + destruct U as (-> & U). unfold dcall. rewrite (deq_right_min T (s v) (L v)). destruct (Z.leb_spec (len (s v)) 1); [unfold len in *; lia|]. eauto.
Qed.

Theorem tundef_exact : forall (T : Type) (lt eqb : T -> T -> bool) (show : T -> list ascii) c (s : tstore T) e, strict_total lt -> decides eqb ->
  stands lt s e -> tint_stmt c -> (exists u, tstep lt eqb show c s = UB u) <-> tundef c s.
Proof.
  intros T lt eqb show c s e O D S A. assert (L: forall v, len (s v) <= INT_MAX) by (intros v; apply S). split.
  - intros (u & E). destruct (ztotal lt eqb show O D c s e S) as [(e1 & ev & P)|[(v & ->)|(v & ->)]]; cbn [tundef]; auto.
    + destruct (zcomplete lt eqb show O D _ _ _ _ _ S A P) as (s1 & F & _). congruence.
    + cbn [tstep] in E. unfold tguard in E. rewrite !size_ok in E by auto. destruct (Z.leb_spec (len (s v)) (INT_MAX - len (s v))); [|discriminate].
      unfold len in *. lia.
  - intros U. destruct c; cbn [tundef] in U; try contradiction; cbn [tstep].
    + subst. rewrite Nat.eqb_refl. eauto.
    + destruct U as (-> & U). unfold tguard. rewrite !size_ok by auto. destruct (Z.leb_spec (len (s w)) (INT_MAX - len (s w))); [|unfold len in *; lia].
      rewrite Nat.eqb_refl. eauto.
Qed.

Theorem mundef_exact : forall (K V : Type) (ltk eqk : K -> K -> bool) (ltv eqv : V -> V -> bool) (showk : K -> list ascii) (showv : V -> list ascii)
  c (s : mstore K V) e, strict_total ltk -> strict_total ltv -> decides eqk -> decides eqv -> mstands ltk s e -> mint_stmt c ->
  (exists u, mstep ltk eqk ltv eqv showk showv c s = UB u) <-> mundef c s.
Proof.
  intros K V ltk eqk ltv eqv showk showv c s e OK OV DK DV S A. assert (L: forall v, len (s v) <= INT_MAX) by (intros v; apply S). split.
  - intros (u & E). destruct (mstep_ub ltk eqk ltv eqv showk showv OK OV DK DV c s e u S A E) as [(v & ->)|[(v & ->)|(v & N & [->| ->])]]; cbn [mundef]; auto.
    cbn [mstep] in E. unfold mguard in E. rewrite !size_ok in E by auto. destruct (Z.leb_spec (len (s v)) (INT_MAX - len (s v))); [|discriminate].
    unfold len in *. lia.
  - intros U. destruct c; cbn [mundef] in U; try contradiction; cbn [mstep].
    + subst. rewrite Nat.eqb_refl. eauto.
    + destruct U as (-> & U). unfold mguard. rewrite !size_ok by auto. destruct (Z.leb_spec (len (s w)) (INT_MAX - len (s w))); [|unfold len in *; lia].
      rewrite Nat.eqb_refl. eauto.
    + rewrite U. cbn. eauto.
    + rewrite U. cbn. eauto.
Qed.

Lemma undef_witness :
  (forall (T : Type) (eqb : T -> T -> bool) (show : T -> list ascii) v a b (s : dstore T), decides eqb -> dsized s -> s v = [a; b] ->
    exists u, dstep eqb show (DShr v INT_MIN) s = UB u) /\
  (forall (K V : Type) (ltk eqk : K -> K -> bool) (ltv eqv : V -> V -> bool) (showk : K -> list ascii) (showv : V -> list ascii) v (s : mstore K V),
    s v = [] -> exists u, mstep ltk eqk ltv eqv showk showv (MMin v) s = UB u).
Proof.
  split.
  - intros T eqb show v a b s D S E. apply dundef_exact; auto.
    + cbn. unfold INT_MIN, INT_MAX. lia.
    + cbn [dundef]. rewrite E. cbn. split; [reflexivity|lia].
  - intros K V ltk eqk ltv eqv showk showv v s E. cbn [mstep]. rewrite E. cbn. eauto.
Qed.
