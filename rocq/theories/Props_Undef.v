(** Property C175: the calls on containers that the code leaves undefined. Theorems only; each is an instance of a
    lemma proved elsewhere and is followed by its assumptions and by a concrete case. *)
From Coq Require Import ZArith List Ascii Bool Lia.
From Verif Require Import Outcome Show ListModel ListSpec ListProgModel ListProgSpec ListProg DequeModel DequeSpec SetModel SetSpec DictModel DictSpec
  UndefSpec UndefFacts ExTools.
Import ListNotations.
Open Scope Z_scope.

(** Shifting by INT_MIN, and the smallest key of an empty dictionary. *)
Theorem C175_undefined_refuted : (forall (T : Type) (eqb : T -> T -> bool) (show : T -> list ascii) v a b (s : dstore T), decides eqb -> dsized s -> s v = [a; b] ->
    exists u, dstep eqb show (DShr v INT_MIN) s = UB u) /\
  (forall (K V : Type) (ltk eqk : K -> K -> bool) (ltv eqv : V -> V -> bool) (showk : K -> list ascii) (showv : V -> list ascii) v (s : mstore K V),
    s v = [] -> exists u, mstep ltk eqk ltv eqv showk showv (MMin v) s = UB u).
Proof. exact undef_witness. Qed.
Print Assumptions C175_undefined_refuted.

(** For every call on List variables of ordinary size with int arguments, the exact condition. *)
Theorem C175_list : forall (T : Type) (eqb lt : T -> T -> bool) (show : T -> list ascii) (d : T), decides eqb -> strict_weak lt -> forall c s, sized s -> int_stmt c ->
  (exists u, lstep eqb lt show d c s = UB u) <-> lundef c s.
Proof. exact @undefined_exact. Qed.
Print Assumptions C175_list.

Theorem C175_deque : forall (T : Type) (eqb : T -> T -> bool) (show : T -> list ascii) c (s : dstore T), decides eqb -> dsized s -> dint_stmt c ->
  (exists u, dstep eqb show c s = UB u) <-> dundef c s.
Proof. exact dundef_exact. Qed.
Print Assumptions C175_deque.

Theorem C175_set : forall (T : Type) (lt eqb : T -> T -> bool) (show : T -> list ascii) c (s : tstore T) e, strict_total lt -> decides eqb ->
  stands lt s e -> tint_stmt c -> (exists u, tstep lt eqb show c s = UB u) <-> tundef c s.
Proof. exact tundef_exact. Qed.
Print Assumptions C175_set.

Theorem C175_dict : forall (K V : Type) (ltk eqk : K -> K -> bool) (ltv eqv : V -> V -> bool) (showk : K -> list ascii) (showv : V -> list ascii)
  c (s : mstore K V) e, strict_total ltk -> strict_total ltv -> decides eqk -> decides eqv -> mstands ltk s e -> mint_stmt c ->
  (exists u, mstep ltk eqk ltv eqv showk showv c s = UB u) <-> mundef c s.
Proof. exact mundef_exact. Qed.
Print Assumptions C175_dict.

Example C175_case : lundef (LErase 0%nat 2 1) (fun _ => [1; 2; 3]) /\ ~ lundef (LErase 0%nat 1 2) (fun _ => [1; 2; 3]) /\
  lstep Z.eqb Z.ltb show_int 0 (LErase 0%nat 2 1) (fun _ => [1; 2; 3]) = UB InvalidRange /\
  dundef (DShr 0%nat INT_MIN) (fun _ => [1; 2]) /\ ~ dundef (DShr 0%nat INT_MIN) (fun _ => [1]) /\
  dundef (DMove 1%nat 1%nat) (fun _ => [1]) /\ tundef (TExtendSet 1%nat 1%nat) (fun _ => [1]) /\ mundef (@MMin Z Z 0%nat) (fun _ => []).
Proof. cbn. unfold INT_MAX, INT_MIN. repeat match goal with |- _ /\ _ => split end; try (vm_compute; reflexivity); try lia; auto. Qed.
