(** Properties C189, C190: iterators over Dicts. Theorems only; each is an instance of a lemma proved elsewhere and is
    followed by its assumptions and by a concrete case. [istands ltk s e P I]: the state [s] stands for the finite maps [e],
    the pointers [P] and the iterators [I]. *)
From Coq Require Import String Ascii ZArith List Bool Lia Sorted.
From Verif Require Import Outcome Show ListModel ListSpec SetModel SetSpec SetFacts SetMore DictModel DictSpec DictFacts DictProg
  DictRefModel DictRefSpec DictRef DictIterModel DictIterSpec DictIter ExTools.
Import ListNotations.
Open Scope Z_scope.

(** Whatever a program with iterators over Dicts does, it does to finite maps with iterators at keys. *)
Theorem C189_iterators : forall (K V : Type) (ltk eqk : K -> K -> bool) (ltv eqv : V -> V -> bool) (showk : K -> list ascii) (showv : V -> list ascii),
  strict_total ltk -> strict_total ltv -> decides eqk -> decides eqv ->
  forall prog s e P I s' ev, istands ltk s e P I -> Forall iint_stmt prog -> i_run ltk eqk ltv eqv showk showv prog s = Ok (s', ev) ->
  exists e' P' I', irun_spec ltk ltv showk showv prog e P I e' P' I' ev /\ istands ltk s' e' P' I'.
Proof. exact @i_run_refines. Qed.
Print Assumptions C189_iterators.

(** Every run on finite maps is a run of the code. *)
Theorem C189_iterators_complete : forall (K V : Type) (ltk eqk : K -> K -> bool) (ltv eqv : V -> V -> bool) (showk : K -> list ascii) (showv : V -> list ascii),
  strict_total ltk -> strict_total ltv -> decides eqk -> decides eqv ->
  forall prog s e P I e' P' I' ev, istands ltk s e P I -> Forall iint_stmt prog ->
  irun_spec ltk ltv showk showv prog e P I e' P' I' ev -> exists s', i_run ltk eqk ltv eqv showk showv prog s = Ok (s', ev) /\ istands ltk s' e' P' I'.
Proof. exact @irun_complete. Qed.
Print Assumptions C189_iterators_complete.

(** A program runs to its end as finite maps do, or it is undefined. *)
Theorem C189_otherwise_undefined : forall (K V : Type) (ltk eqk : K -> K -> bool) (ltv eqv : V -> V -> bool) (showk : K -> list ascii) (showv : V -> list ascii),
  strict_total ltk -> strict_total ltv -> decides eqk -> decides eqv ->
  forall prog s e P I, istands ltk s e P I -> Forall iint_stmt prog ->
  (exists s' e' P' I' ev, i_run ltk eqk ltv eqv showk showv prog s = Ok (s', ev) /\ irun_spec ltk ltv showk showv prog e P I e' P' I' ev /\ istands ltk s' e' P' I') \/
  (exists u, i_run ltk eqk ltv eqv showk showv prog s = UB u).
Proof. exact @i_run_cases. Qed.
Print Assumptions C189_otherwise_undefined.

(** A statement is undefined exactly when finite maps with iterators have no answer. *)
Theorem C189_undefined_exact : forall (K V : Type) (ltk eqk : K -> K -> bool) (ltv eqv : V -> V -> bool) (showk : K -> list ascii) (showv : V -> list ascii),
  strict_total ltk -> strict_total ltv -> decides eqk -> decides eqv ->
  forall c s e P I, istands ltk s e P I -> iint_stmt c ->
  ((exists u, i_step ltk eqk ltv eqv showk showv c s = UB u) <-> ~ exists e' P' I' ev, istep_spec ltk ltv showk showv c e P I e' P' I' ev).
Proof. exact @i_step_ub. Qed.
Print Assumptions C189_undefined_exact.

Example C189_case : istands Z.ltb (IState (HState (fun _ => []) (fun _ => 0) (fun _ => false) 0%nat (fun _ => None)) (fun _ => 0%nat) (fun _ => 0%nat) (fun _ => None))
    (fun _ => @no_entry Z Z) (fun _ => Null) (fun _ => Unset) /\
  exists s, i_run Z.ltb Z.eqb Z.ltb Z.eqb (fun _ => []) (fun _ => [])
    [IDo (PDo (MInit 0 [(1, 10); (3, 30)])); IFind 0 0 3; IDo (PDo (MAdd 0 2 20)); IPair 0; IPrev 0; IPair 0; IPrev 0; IPair 0;
     IEnd 1 0; IBack 1; IPrev 1; IBack 1; IPtr 0 1; IDo (PWrite 0 31); IPair 1; INext 1; IEnd 2 0; ISame 1 2; ISame 0 1; IDo (PDo (MMove 1 0)); IPair 0; IFind 3 1 7;
     IEnd 4 1; ISame 3 4] (IState (HState (fun _ => []) (fun _ => 0) (fun _ => false) 0%nat (fun _ => None)) (fun _ => 0%nat) (fun _ => 0%nat) (fun _ => None)) =
  Ok (s, [MBool true; MPair (3, 30); MPair (2, 20); MPair (1, 10); MPair (3, 30); MPair (2, 20); MPair (3, 31); MBool true; MBool false; MPair (1, 10); MBool true]).
Proof.
  split; [|eexists; vm_compute; reflexivity].
  constructor; cbn; try contradiction; auto. constructor; cbn; try contradiction; try discriminate; auto.
  intros v. split; [|cbn; unfold INT_MAX; lia]. split; [constructor|]. intros k x. split; [contradiction|discriminate].
Qed.
Example C189_case_undefined :
  i_run Z.ltb Z.eqb Z.ltb Z.eqb (fun _ => []) (fun _ => []) [IDo (PDo (MInit 0 [(1, 10); (3, 30)])); IFind 0 0 3; IDo (PDo (MRemove 0 3)); IPair 0] (IState (HState (fun _ => []) (fun _ => 0) (fun _ => false) 0%nat (fun _ => None)) (fun _ => 0%nat) (fun _ => 0%nat) (fun _ => None)) = UB BadDeref /\
  i_run Z.ltb Z.eqb Z.ltb Z.eqb (fun _ => []) (fun _ => []) [IDo (PDo (MInit 0 [(1, 10); (3, 30)])); IFind 0 0 4; IPair 0] (IState (HState (fun _ => []) (fun _ => 0) (fun _ => false) 0%nat (fun _ => None)) (fun _ => 0%nat) (fun _ => 0%nat) (fun _ => None)) = UB BadDeref /\
  i_run Z.ltb Z.eqb Z.ltb Z.eqb (fun _ => []) (fun _ => []) [IDo (PDo (MInit 0 [(1, 10); (3, 30)])); IBegin 0 0; IPrev 0] (IState (HState (fun _ => []) (fun _ => 0) (fun _ => false) 0%nat (fun _ => None)) (fun _ => 0%nat) (fun _ => 0%nat) (fun _ => None)) = UB BadDeref /\
  i_run Z.ltb Z.eqb Z.ltb Z.eqb (fun _ => []) (fun _ => []) [IDo (PDo (MInit 0 [(1, 10); (3, 30)])); IBegin 0 0; IBack 0] (IState (HState (fun _ => []) (fun _ => 0) (fun _ => false) 0%nat (fun _ => None)) (fun _ => 0%nat) (fun _ => 0%nat) (fun _ => None)) = UB BadDeref /\
  i_run Z.ltb Z.eqb Z.ltb Z.eqb (fun _ => []) (fun _ => []) [IBegin 0 0; IBegin 1 1; ISame 0 1] (IState (HState (fun _ => []) (fun _ => 0) (fun _ => false) 0%nat (fun _ => None)) (fun _ => 0%nat) (fun _ => 0%nat) (fun _ => None)) = UB BadDeref.
Proof. vm_compute. repeat split. Qed.

(** for (it = d.begin(); it != d.end(); ++it) visits every entry once, by increasing key, and changes nothing but it. *)
Theorem C190_walk : forall (K V : Type) (ltk eqk : K -> K -> bool) (ltv eqv : V -> V -> bool) (showk : K -> list ascii) (showv : V -> list ascii),
  strict_total ltk -> strict_total ltv -> decides eqk -> decides eqv ->
  forall s e P I i v l, istands ltk s e P I -> listing ltk l (e v) ->
  exists s' I', (se <- i_run ltk eqk ltv eqv showk showv [IBegin i v] s ;; i_loop ltk eqk ltv eqv showk showv (S (length l)) i v [IPair i; INext i] (fst se)) = Ok (s', map MPair l) /\
    istands ltk s' e P I' /\ put I i (Past v) I'.
Proof. exact @walk_ok. Qed.
Print Assumptions C190_walk.

(** A loop from rbegin() to rend() visits every entry once, by decreasing key. *)
Theorem C190_backwards : forall (K V : Type) (ltk eqk : K -> K -> bool) (ltv eqv : V -> V -> bool) (showk : K -> list ascii) (showv : V -> list ascii),
  strict_total ltk -> strict_total ltv -> decides eqk -> decides eqv ->
  forall s e P I i j v l fuel, i <> j -> istands ltk s e P I -> listing ltk l (e v) -> (length l < fuel)%nat ->
  exists s' I', (se <- i_run ltk eqk ltv eqv showk showv [IEnd i v; IBegin j v] s ;; i_while ltk eqk ltv eqv showk showv fuel i j [IBack i; IPrev i] (fst se)) = Ok (s', map MPair (rev l)) /\
    istands ltk s' e P I'.
Proof. exact @walk_back. Qed.
Print Assumptions C190_backwards.

(** Removing an entry after the iterator has left it: j = i; ++i; d.remove(j->first) empties the Dict. *)
Theorem C190_remove_after_next : forall (K V : Type) (ltk eqk : K -> K -> bool) (ltv eqv : V -> V -> bool) (showk : K -> list ascii) (showv : V -> list ascii),
  strict_total ltk -> strict_total ltv -> decides eqk -> decides eqv ->
  forall s e P I i j v l, i <> j -> istands ltk s e P I -> listing ltk l (e v) ->
  exists s' e' P' I', (se <- i_run ltk eqk ltv eqv showk showv [IBegin i v] s ;;
      i_loop ltk eqk ltv eqv showk showv (S (length l)) i v [ICopy j i; INext i; IRemove v j] (fst se)) = Ok (s', map (fun _ => MBool true) l) /\
    istands ltk s' e' P' I' /\ (forall k, e' v k = None) /\ (forall w, w <> v -> e' w = e w).
Proof. exact @drain_ok. Qed.
Print Assumptions C190_remove_after_next.

(** d.remove(i->first); ++i is undefined on every Dict with an entry. *)
Theorem C190_remove_before_next : forall (K V : Type) (ltk eqk : K -> K -> bool) (ltv eqv : V -> V -> bool) (showk : K -> list ascii) (showv : V -> list ascii),
  strict_total ltk -> strict_total ltv -> decides eqk -> decides eqv ->
  forall s e P I i v k n, istands ltk s e P I -> has (e v) k ->
  (se <- i_run ltk eqk ltv eqv showk showv [IBegin i v] s ;; i_loop ltk eqk ltv eqv showk showv (S n) i v [IRemove v i; INext i] (fst se)) = UB BadDeref.
Proof. exact @remove_then_next. Qed.
Print Assumptions C190_remove_before_next.

(** A loop that compares an iterator with the end of another Dict is undefined. *)
Theorem C190_other_end : forall (K V : Type) (ltk eqk : K -> K -> bool) (ltv eqv : V -> V -> bool) (showk : K -> list ascii) (showv : V -> list ascii),
  forall s e P I i v w n body, istands ltk s e P I -> w <> v -> (exists k, I i = At w k) \/ I i = Past w ->
  i_loop ltk eqk ltv eqv showk showv (S n) i v body s = UB BadDeref.
Proof. exact @foreign_loop. Qed.
Print Assumptions C190_other_end.

(** So is a loop that goes backwards and compares with an iterator over another Dict. *)
Theorem C190_other_begin : forall (K V : Type) (ltk eqk : K -> K -> bool) (ltv eqv : V -> V -> bool) (showk : K -> list ascii) (showv : V -> list ascii),
  forall s e P I i j v w n body, istands ltk s e P I -> w <> v -> (exists k, I i = At w k) \/ I i = Past w -> (exists k, I j = At v k) \/ I j = Past v ->
  i_while ltk eqk ltv eqv showk showv (S n) i j body s = UB BadDeref.
Proof. exact @foreign_while. Qed.
Print Assumptions C190_other_begin.

Example C190_case_other :
  (se <- i_run Z.ltb Z.eqb Z.ltb Z.eqb (fun _ => []) (fun _ => []) [IDo (PDo (MInit 0 [(3, 30); (1, 10)])); IBegin 0 0; IEnd 1 1] (IState (HState (fun _ => []) (fun _ => 0) (fun _ => false) 0%nat (fun _ => None)) (fun _ => 0%nat) (fun _ => 0%nat) (fun _ => None)) ;;
    i_loop Z.ltb Z.eqb Z.ltb Z.eqb (fun _ => []) (fun _ => []) 3 0 1 [IPair 0; INext 0] (fst se)) = UB BadDeref /\
  (se <- i_run Z.ltb Z.eqb Z.ltb Z.eqb (fun _ => []) (fun _ => []) [IDo (PDo (MInit 0 [(3, 30); (1, 10)])); IBegin 0 0; IEnd 1 1] (IState (HState (fun _ => []) (fun _ => 0) (fun _ => false) 0%nat (fun _ => None)) (fun _ => 0%nat) (fun _ => 0%nat) (fun _ => None)) ;;
    i_while Z.ltb Z.eqb Z.ltb Z.eqb (fun _ => []) (fun _ => []) 3 0 1 [IBack 0; IPrev 0] (fst se)) = UB BadDeref.
Proof. vm_compute. auto. Qed.

Example C190_case :
  (exists s, (se <- i_run Z.ltb Z.eqb Z.ltb Z.eqb (fun _ => []) (fun _ => []) [IDo (PDo (MInit 0 [(3, 30); (1, 10)])); IBegin 0 0] (IState (HState (fun _ => []) (fun _ => 0) (fun _ => false) 0%nat (fun _ => None)) (fun _ => 0%nat) (fun _ => 0%nat) (fun _ => None)) ;;
    i_loop Z.ltb Z.eqb Z.ltb Z.eqb (fun _ => []) (fun _ => []) 3 0 0 [IPair 0; INext 0] (fst se)) = Ok (s, [MPair (1, 10); MPair (3, 30)])) /\
  (exists s, (se <- i_run Z.ltb Z.eqb Z.ltb Z.eqb (fun _ => []) (fun _ => []) [IDo (PDo (MInit 0 [(3, 30); (1, 10)])); IBegin 0 0] (IState (HState (fun _ => []) (fun _ => 0) (fun _ => false) 0%nat (fun _ => None)) (fun _ => 0%nat) (fun _ => 0%nat) (fun _ => None)) ;;
    i_loop Z.ltb Z.eqb Z.ltb Z.eqb (fun _ => []) (fun _ => []) 3 0 0 [ICopy 1 0; INext 0; IRemove 0 1] (fst se)) = Ok (s, [MBool true; MBool true])) /\
  (se <- i_run Z.ltb Z.eqb Z.ltb Z.eqb (fun _ => []) (fun _ => []) [IDo (PDo (MInit 0 [(3, 30); (1, 10)])); IBegin 0 0] (IState (HState (fun _ => []) (fun _ => 0) (fun _ => false) 0%nat (fun _ => None)) (fun _ => 0%nat) (fun _ => 0%nat) (fun _ => None)) ;;
    i_loop Z.ltb Z.eqb Z.ltb Z.eqb (fun _ => []) (fun _ => []) 3 0 0 [IRemove 0 0; INext 0] (fst se)) = UB BadDeref.
Proof. split; [eexists; vm_compute; reflexivity|]. split; [eexists; vm_compute; reflexivity|]. vm_compute. reflexivity. Qed.
Example C190_case_back :
  exists s, (se <- i_run Z.ltb Z.eqb Z.ltb Z.eqb (fun _ => []) (fun _ => []) [IDo (PDo (MInit 0 [(3, 30); (1, 10); (2, 20)])); IEnd 0 0; IBegin 1 0] (IState (HState (fun _ => []) (fun _ => 0) (fun _ => false) 0%nat (fun _ => None)) (fun _ => 0%nat) (fun _ => 0%nat) (fun _ => None)) ;;
    i_while Z.ltb Z.eqb Z.ltb Z.eqb (fun _ => []) (fun _ => []) 4 0 1 [IBack 0; IPrev 0] (fst se)) = Ok (s, [MPair (3, 30); MPair (2, 20); MPair (1, 10)]).
Proof. eexists. vm_compute. reflexivity. Qed.
