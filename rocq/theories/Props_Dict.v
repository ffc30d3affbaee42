(** Properties C74-C78 and C117-C119: dictionaries. Theorems only; each is an instance of a
    lemma proved elsewhere and is followed by its assumptions and by a concrete case.
    [listing ltk d m]: the iteration order of the dict [d] is the entries of the finite map
    [m] by increasing key. *)
From Coq Require Import String Ascii ZArith List Bool Lia Sorted.
From Verif Require Import Outcome Show ListModel ListSpec ListFacts ListMore SetModel SetSpec SetFacts SetMore DictModel DictSpec DictFacts DictProg ExTools.
Import ListNotations.
Open Scope Z_scope.

(** Whatever a program does to the code it does to finite maps: same results, text and exceptions. *)
Theorem C74_histories : forall (K V : Type) (ltk eqk : K -> K -> bool) (ltv eqv : V -> V -> bool) (showk : K -> list ascii) (showv : V -> list ascii),
  strict_total ltk -> strict_total ltv -> decides eqk -> decides eqv ->
  forall prog s e s' ev, mstands ltk s e -> Forall mint_stmt prog -> mrun ltk eqk ltv eqv showk showv prog s = Ok (s', ev) ->
  exists e', frun ltk ltv showk showv prog e e' ev /\ mstands ltk s' e'.
Proof. exact @mrun_refines. Qed.
Print Assumptions C74_histories.

(** Every abstract run is a run of the code. *)
Theorem C74_histories_complete : forall (K V : Type) (ltk eqk : K -> K -> bool) (ltv eqv : V -> V -> bool) (showk : K -> list ascii) (showv : V -> list ascii),
  strict_total ltk -> strict_total ltv -> decides eqk -> decides eqv ->
  forall prog s e e' ev, mstands ltk s e -> Forall mint_stmt prog -> frun ltk ltv showk showv prog e e' ev ->
  exists s', mrun ltk eqk ltv eqv showk showv prog s = Ok (s', ev) /\ mstands ltk s' e'.
Proof. exact @frun_complete. Qed.
Print Assumptions C74_histories_complete.

Theorem C74_otherwise_undefined : forall (K V : Type) (ltk eqk : K -> K -> bool) (ltv eqv : V -> V -> bool) (showk : K -> list ascii) (showv : V -> list ascii),
  strict_total ltk -> strict_total ltv -> decides eqk -> decides eqv ->
  forall prog s e, mstands ltk s e -> Forall mint_stmt prog ->
  (exists s' e' ev, mrun ltk eqk ltv eqv showk showv prog s = Ok (s', ev) /\ frun ltk ltv showk showv prog e e' ev /\ mstands ltk s' e') \/
  (exists u, mrun ltk eqk ltv eqv showk showv prog s = UB u).
Proof. exact @mrun_defined. Qed.
Print Assumptions C74_otherwise_undefined.

(** The undefined cases: moving or extending a dict from itself, and min or max of an empty dict. *)
Theorem C74_undefined_only : forall (K V : Type) (ltk eqk : K -> K -> bool) (ltv eqv : V -> V -> bool) (showk : K -> list ascii) (showv : V -> list ascii),
  strict_total ltk -> strict_total ltv -> decides eqk -> decides eqv ->
  forall c s e u, mstands ltk s e -> mint_stmt c -> mstep ltk eqk ltv eqv showk showv c s = UB u ->
  (exists v, c = MMove v v) \/ (exists v, c = MExtendDict v v) \/ (exists v, s v = [] /\ (c = MMin v \/ c = MMax v)).
Proof. exact @mstep_ub. Qed.
Print Assumptions C74_undefined_only.

Theorem C74_lookup : forall (K V : Type) (ltk : K -> K -> bool), strict_total ltk -> forall (d : list (K * V)) m k x, listing ltk d m ->
  dict_at ltk d k = match m k with Some y => Ok y | None => Throw KeyNotFound end /\
  dict_get ltk d k x = Ok (match m k with Some y => y | None => x end) /\
  dict_contains ltk d k = match m k with Some _ => true | None => false end.
Proof. exact @lookup_ok. Qed.
Print Assumptions C74_lookup.

Theorem C74_assign : forall (K V : Type) (ltk : K -> K -> bool), strict_total ltk -> forall (d : list (K * V)) m k x, listing ltk d m ->
  (m k = None -> dict_set ltk k x d = (Throw KeyNotFound, d)) /\
  (has m k -> exists d' m', dict_set ltk k x d = (Ok tt, d') /\ listing ltk d' m' /\ puts m k x m').
Proof. exact @assign_spec. Qed.
Print Assumptions C74_assign.

Theorem C74_remove : forall (K V : Type) (ltk : K -> K -> bool), strict_total ltk -> forall (d : list (K * V)) m k, listing ltk d m ->
  exists b d' m', dict_remove ltk k d = (Ok b, d') /\ tells b (has m k) /\ listing ltk d' m' /\ drops m k m'.
Proof. exact @remove_ok. Qed.
Print Assumptions C74_remove.

Example C74_case : strict_total Z.ltb /\ mstands Z.ltb (fun _ => @nil (Z * Z)) (fun _ _ => None) /\ exists s',
  mrun Z.ltb Z.eqb Z.ltb Z.eqb show_int show_int
    [MInit 1%nat [(3, 30); (1, 10); (3, 99)]; MAdd 1%nat 2 20; MAdd 1%nat 2 21; MGet 1%nat 3; MSet 1%nat 3 31; MGet 1%nat 9; MSet 1%nat 9 0; MGetOr 1%nat 9 7;
     MPrint 1%nat; MRemove 1%nat 9; MPop 1%nat; MInit 2%nat [(2, 5); (4, 31)]; MExtendDict 1%nat 2%nat; MIterate 1%nat; MKeys 1%nat; MValues 1%nat;
     MMax 1%nat; MEqual 1%nat 2%nat; MClear 1%nat; MPop 1%nat; MSize 2%nat]
    (fun _ => []) =
    Ok (s', [MBool true; MBool false; MVal 30; MThrow KeyNotFound; MThrow KeyNotFound; MVal 7; MText (chars "{1: 10, 2: 20, 3: 31}"); MBool false;
             MPair (1, 10); MPair (2, 20); MPair (3, 31); MPair (4, 31); MKey 2; MKey 3; MKey 4; MVal 20; MVal 31; MKey 4; MBool false;
             MThrow ContainerEmpty; MNum 2]).
Proof.
  split; [exact Zltb_total|]. split.
  - intros v. split; [split; [constructor|intros k x; cbn; split; [tauto|discriminate]]|cbn; unfold INT_MAX; lia].
  - eexists. vm_compute. reflexivity.
Qed.

Theorem C75_add : forall (K V : Type) (ltk : K -> K -> bool), strict_total ltk -> forall (d : list (K * V)) m k x, listing ltk d m -> len d <= INT_MAX ->
  (len d = INT_MAX -> dict_add ltk k x d = (Throw ContainerFull, d)) /\
  (len d < INT_MAX -> has m k -> dict_add ltk k x d = (Ok false, d)) /\
  (len d < INT_MAX -> m k = None -> exists d' m', dict_add ltk k x d = (Ok true, d') /\ listing ltk d' m' /\ puts m k x m').
Proof. exact @add_ok. Qed.
Print Assumptions C75_add.

Theorem C75_extend_and_construct : forall (K V : Type) (ltk : K -> K -> bool), strict_total ltk -> forall (d : list (K * V)) m xs, listing ltk d m ->
  (exists d' m', dict_extend ltk xs d = (Ok tt, d') /\ listing ltk d' m' /\ extended m xs m') /\
  (exists m', listing ltk (dict_of ltk xs) m' /\ forall k x, m' k = Some x <-> first_value xs k x).
Proof. exact @extend_ok. Qed.
Print Assumptions C75_extend_and_construct.

Example C75_case : dict_add Z.ltb 2 9 [(1, 10); (2, 20)] = (Ok false, [(1, 10); (2, 20)]) /\
  dict_add Z.ltb 0 9 [(1, 10); (2, 20)] = (Ok true, [(0, 9); (1, 10); (2, 20)]) /\
  dict_extend Z.ltb [(2, 0); (3, 5); (3, 6)] [(1, 10); (2, 20)] = (Ok tt, [(1, 10); (2, 20); (3, 5)]) /\
  dict_of Z.ltb [(2, 1); (1, 1); (2, 2)] = [(1, 1); (2, 1)].
Proof. vm_compute. repeat split. Qed.

Theorem C76_views : forall (K V : Type) (ltk : K -> K -> bool) (ltv : V -> V -> bool), strict_total ltk -> strict_total ltv ->
  forall (d : list (K * V)) m, listing ltk d m -> len d <= INT_MAX ->
  (exists s, dict_keys ltk d = Ok s /\ enumerates ltk s (has m)) /\
  (exists s, dict_values ltv d = Ok s /\ enumerates ltv s (fun x => exists k, m k = Some x)) /\
  dict_items ltk ltv d = Ok d.
Proof. exact @views_ok. Qed.
Print Assumptions C76_views.

Example C76_case : dict_keys Z.ltb [(1, 7); (2, 5); (4, 7)] = Ok [1; 2; 4] /\ dict_values Z.ltb [(1, 7); (2, 5); (4, 7)] = Ok [5; 7] /\
  dict_items Z.ltb Z.ltb [(1, 7); (2, 5); (4, 7)] = Ok [(1, 7); (2, 5); (4, 7)].
Proof. vm_compute. repeat split. Qed.

Theorem C77_empty_extrema_refuted : dict_min (@nil (Z * Z)) = UB BadDeref /\ dict_max (@nil (Z * Z)) = UB BadDeref.
Proof. exact dict_empty_extrema. Qed.
Print Assumptions C77_empty_extrema_refuted.

Theorem C78_extrema_and_pop : forall (K V : Type) (ltk : K -> K -> bool), strict_total ltk -> forall (d : list (K * V)) m, listing ltk d m -> len d <= INT_MAX ->
  (nothing (has m) -> dict_pop d = (Throw ContainerEmpty, d)) /\
  (~ nothing (has m) -> exists k x j d' m', dict_min d = Ok k /\ least ltk (has m) k /\ dict_max d = Ok j /\ greatest ltk (has m) j /\
     m k = Some x /\ dict_pop d = (Ok (k, x), d') /\ listing ltk d' m' /\ drops m k m').
Proof. exact @dict_extrema. Qed.
Print Assumptions C78_extrema_and_pop.

Example C78_case : dict_min [(1, 7); (2, 5); (4, 7)] = Ok 1 /\ dict_max [(1, 7); (2, 5); (4, 7)] = Ok 4 /\
  dict_pop [(1, 7); (2, 5); (4, 7)] = (Ok (1, 7), [(2, 5); (4, 7)]) /\ dict_pop (@nil (Z * Z)) = (Throw ContainerEmpty, []).
Proof. vm_compute. repeat split. Qed.

Theorem C117_equality : forall (K V : Type) (ltk eqk : K -> K -> bool) (eqv : V -> V -> bool), strict_total ltk -> decides eqk -> decides eqv ->
  forall (d e : list (K * V)) m n, listing ltk d m -> listing ltk e n ->
  dict_eqb eqk eqv d e = true <-> (forall k, m k = n k).
Proof. exact @dict_eq_ok. Qed.
Print Assumptions C117_equality.

Example C117_case : dict_eqb Z.eqb Z.eqb (dict_of Z.ltb [(2, 5); (1, 7)]) (dict_of Z.ltb [(1, 7); (2, 5)]) = true /\
  dict_eqb Z.eqb Z.eqb [(1, 7)] [(1, 8)] = false.
Proof. vm_compute. repeat split. Qed.

Theorem C118_add_present_full_refuted : exists (d : list (Z * Z)) k, increasing Z.ltb (map fst d) /\ In k (map fst d) /\
  dict_add Z.ltb k 0 d = (Throw ContainerFull, d).
Proof. exact dict_add_full_witness. Qed.
Print Assumptions C118_add_present_full_refuted.

Theorem C119_extend_wraps_refuted : exists d : list (Z * Z), increasing Z.ltb (map fst d) /\ len d = INT_MAX /\
  size (snd (dict_extend Z.ltb [(-1, 0)] d)) = INT_MIN.
Proof. exact dict_extend_wraps. Qed.
Print Assumptions C119_extend_wraps_refuted.
