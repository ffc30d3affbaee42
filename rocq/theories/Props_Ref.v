(** Properties C187, C188: references into Dicts. Theorems only; each is an instance of a lemma proved elsewhere and is
    followed by its assumptions and by a concrete case. [hstands ltk h e P]: the nodes of the state [h] stand for the
    finite maps [e], and its pointer variables hold what [P] says. *)
From Coq Require Import String Ascii ZArith List Bool Lia Sorted.
From Verif Require Import Outcome Show ListModel ListSpec SetModel SetSpec SetFacts SetMore DictModel DictSpec DictFacts DictProg
  DictRefModel DictRefSpec DictRef ExTools.
Import ListNotations.
Open Scope Z_scope.

(** Whatever a program with pointers into Dicts does, it does to finite maps with pointers to keys. *)
Theorem C187_references : forall (K V : Type) (ltk eqk : K -> K -> bool) (ltv eqv : V -> V -> bool) (showk : K -> list ascii) (showv : V -> list ascii),
  strict_total ltk -> strict_total ltv -> decides eqk -> decides eqv ->
  forall prog h e P h' ev, hstands ltk h e P -> Forall pint_stmt prog -> h_run ltk eqk ltv eqv showk showv prog h = Ok (h', ev) ->
  exists e' P', rrun ltk ltv showk showv prog e P e' P' ev /\ hstands ltk h' e' P'.
Proof. exact @h_run_refines. Qed.
Print Assumptions C187_references.

(** Every run on finite maps is a run of the code. *)
Theorem C187_references_complete : forall (K V : Type) (ltk eqk : K -> K -> bool) (ltv eqv : V -> V -> bool) (showk : K -> list ascii) (showv : V -> list ascii),
  strict_total ltk -> strict_total ltv -> decides eqk -> decides eqv ->
  forall prog h e P e' P' ev, hstands ltk h e P -> Forall pint_stmt prog -> rrun ltk ltv showk showv prog e P e' P' ev ->
  exists h', h_run ltk eqk ltv eqv showk showv prog h = Ok (h', ev) /\ hstands ltk h' e' P'.
Proof. exact @rrun_complete. Qed.
Print Assumptions C187_references_complete.

(** A program runs to its end as finite maps do, or it is undefined. *)
Theorem C187_otherwise_undefined : forall (K V : Type) (ltk eqk : K -> K -> bool) (ltv eqv : V -> V -> bool) (showk : K -> list ascii) (showv : V -> list ascii),
  strict_total ltk -> strict_total ltv -> decides eqk -> decides eqv ->
  forall prog h e P, hstands ltk h e P -> Forall pint_stmt prog ->
  (exists h' e' P' ev, h_run ltk eqk ltv eqv showk showv prog h = Ok (h', ev) /\ rrun ltk ltv showk showv prog e P e' P' ev /\ hstands ltk h' e' P') \/
  (exists u, h_run ltk eqk ltv eqv showk showv prog h = UB u).
Proof. exact @h_run_cases. Qed.
Print Assumptions C187_otherwise_undefined.

(** A statement is undefined exactly when finite maps with pointers have no answer. *)
Theorem C187_undefined_exact : forall (K V : Type) (ltk eqk : K -> K -> bool) (ltv eqv : V -> V -> bool) (showk : K -> list ascii) (showv : V -> list ascii),
  strict_total ltk -> strict_total ltv -> decides eqk -> decides eqv ->
  forall c h e P, hstands ltk h e P -> pint_stmt c ->
  ((exists u, h_step ltk eqk ltv eqv showk showv c h = UB u) <-> ~ exists e' P' ev, rstep ltk ltv showk showv c e P e' P' ev).
Proof. exact @h_step_ub. Qed.
Print Assumptions C187_undefined_exact.

(** The undefined statements: those of C74, and reading or writing through a pointer that points to no entry. *)
Theorem C187_undefined_only : forall (K V : Type) (ltk eqk : K -> K -> bool) (ltv eqv : V -> V -> bool) (showk : K -> list ascii) (showv : V -> list ascii),
  strict_total ltk -> strict_total ltv -> decides eqk -> decides eqv ->
  forall c h e P u, hstands ltk h e P -> pint_stmt c -> h_step ltk eqk ltv eqv showk showv c h = UB u ->
  (exists v, c = PDo (MMove v v) \/ c = PDo (MExtendDict v v)) \/
  (exists v, (forall k, e v k = None) /\ (c = PDo (MMin v) \/ c = PDo (MMax v))) \/
  (exists r, derefs c r /\ forall v k, P r <> To v k).
Proof. exact @h_step_risky. Qed.
Print Assumptions C187_undefined_only.

(** A reference outlives any number of insertions, into its own Dict or another. *)
Theorem C187_grows : forall (K V : Type) (ltk eqk : K -> K -> bool) (ltv eqv : V -> V -> bool) (showk : K -> list ascii) (showv : V -> list ascii),
  strict_total ltk -> strict_total ltv -> decides eqk -> decides eqv ->
  forall h e P r v k w xs y, hstands ltk h e P -> Z.of_nat (length xs) <= INT_MAX -> e v k = Some y ->
  exists h', h_run ltk eqk ltv eqv showk showv [PAddr r v k; PDo (MExtend w xs); PRead r] h = Ok (h', [MVal y]).
Proof. exact @kept_extend. Qed.
Print Assumptions C187_grows.

(** A reference to a removed entry stays dead when the key is added again. *)
Theorem C187_removed : forall (K V : Type) (ltk eqk : K -> K -> bool) (ltv eqv : V -> V -> bool) (showk : K -> list ascii) (showv : V -> list ascii),
  strict_total ltk -> strict_total ltv -> decides eqk -> decides eqv ->
  forall h e P r v k x, hstands ltk h e P -> has (e v) k ->
  h_run ltk eqk ltv eqv showk showv [PAddr r v k; PDo (MRemove v k); PDo (MAdd v k x); PRead r] h = UB BadDeref.
Proof. exact @readded. Qed.
Print Assumptions C187_removed.

(** Writing through a reference is assigning to the entry. *)
Theorem C187_write : forall (K V : Type) (ltk eqk : K -> K -> bool) (ltv eqv : V -> V -> bool) (showk : K -> list ascii) (showv : V -> list ascii),
  strict_total ltk -> strict_total ltv -> decides eqk -> decides eqv ->
  forall h e P r v k x, hstands ltk h e P -> has (e v) k ->
  exists h1 h2, h_run ltk eqk ltv eqv showk showv [PAddr r v k; PWrite r x] h = Ok (h1, []) /\
    h_run ltk eqk ltv eqv showk showv [PAddr r v k; PDo (MSet v k x)] h = Ok (h2, []) /\ forall w, view h1 w = view h2 w.
Proof. exact @write_same. Qed.
Print Assumptions C187_write.

Example C187_case : hstands Z.ltb (HState (fun _ => []) (fun _ => 0) (fun _ => false) 0%nat (fun _ => None)) (fun _ => @no_entry Z Z) (fun _ => Null) /\
  exists h, h_run Z.ltb Z.eqb Z.ltb Z.eqb (fun _ => []) (fun _ => [])
    [PDo (MInit 0 [(1, 10); (2, 20)]); PAddr 0 0 2; PDo (MAdd 0 0 5); PRead 0; PWrite 0 21; PDo (MGet 0 2);
     PDo (MMove 1 0); PRead 0; PAddr 1 0 2; PGetOr 1 1 7 0; PWrite 1 22; PDo (MItems 1)]
    (HState (fun _ => []) (fun _ => 0) (fun _ => false) 0%nat (fun _ => None)) =
  Ok (h, [MBool true; MVal 20; MVal 21; MVal 21; MThrow KeyNotFound; MPair (0, 5); MPair (1, 10); MPair (2, 22)]).
Proof.
  split.
  - constructor; cbn; try contradiction; try discriminate; auto. intros v. split; [|cbn; unfold INT_MAX; lia].
    split; [constructor|]. intros k x. split; [contradiction|discriminate].
  - eexists. vm_compute. reflexivity.
Qed.
Example C187_case_grows : exists h, h_run Z.ltb Z.eqb Z.ltb Z.eqb (fun _ => []) (fun _ => [])
    [PDo (MInit 0 [(1, 10); (2, 20)]); PAddr 0 0 2; PDo (MExtend 0 [(2, 7); (0, 0); (3, 30)]); PRead 0; PDo (MSize 0)]
    (HState (fun _ => []) (fun _ => 0) (fun _ => false) 0%nat (fun _ => None)) = Ok (h, [MVal 20; MNum 4]).
Proof. eexists. vm_compute. reflexivity. Qed.
Example C187_case_removed : h_run Z.ltb Z.eqb Z.ltb Z.eqb (fun _ => []) (fun _ => [])
    [PDo (MInit 0 [(1, 10); (2, 20)]); PAddr 0 0 2; PDo (MRemove 0 2); PDo (MAdd 0 2 20); PRead 0]
    (HState (fun _ => []) (fun _ => 0) (fun _ => false) 0%nat (fun _ => None)) = UB BadDeref.
Proof. vm_compute. reflexivity. Qed.

(** The reference returned by get(key, V(x)) cannot be used when the key is absent. *)
Theorem C188_get_refuted : exists (h : hstate Z Z) e P r v k x, hstands Z.ltb h e P /\
  h_step Z.ltb Z.eqb Z.ltb Z.eqb (fun _ => []) (fun _ => []) (PGet r v k x) h <> UB BadDeref /\
  h_run Z.ltb Z.eqb Z.ltb Z.eqb (fun _ => []) (fun _ => []) [PGet r v k x; PRead r] h = UB BadDeref.
Proof. exact get_dangles. Qed.
Print Assumptions C188_get_refuted.

(** The reference is usable exactly when the key is present. *)
Theorem C188_get_exact : forall (K V : Type) (ltk eqk : K -> K -> bool) (ltv eqv : V -> V -> bool) (showk : K -> list ascii) (showv : V -> list ascii),
  strict_total ltk -> strict_total ltv -> decides eqk -> decides eqv ->
  forall h e P r v k x, hstands ltk h e P ->
  (forall y, e v k = Some y -> exists h', h_run ltk eqk ltv eqv showk showv [PGet r v k x; PRead r] h = Ok (h', [MVal y])) /\
  (e v k = None -> h_run ltk eqk ltv eqv showk showv [PGet r v k x; PRead r] h = UB BadDeref).
Proof. exact @get_exact. Qed.
Print Assumptions C188_get_exact.

Example C188_case : exists h, h_run Z.ltb Z.eqb Z.ltb Z.eqb (fun _ => []) (fun _ => [])
    [PDo (MInit 0 [(1, 10)]); PGet 0 0 1 5; PRead 0; PDo (MGetOr 0 2 5)]
    (HState (fun _ => []) (fun _ => 0) (fun _ => false) 0%nat (fun _ => None)) = Ok (h, [MVal 10; MVal 5]).
Proof. eexists. vm_compute. reflexivity. Qed.
