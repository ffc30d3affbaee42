(** Properties C208-C211: iterators over Sets. Theorems only; each is an instance of a lemma proved elsewhere and is
    followed by its assumptions and by a concrete case. [nstands lt s e I]: the state [s] stands for the mathematical sets
    [e], and the iterator variables are as [I] says: at an element, at the end of a set, never set, or lost. *)
From Coq Require Import String Ascii ZArith List Bool Lia.
From Verif Require Import Outcome Show ListModel ListSpec SetModel SetSpec DictIterSpec SetIterModel SetIterSpec SetIter SetLoop LoopTest ExRun ExTools.
Import ListNotations.
Open Scope Z_scope.

(** Whatever a program with iterators over Sets does, it does to mathematical sets and their elements. *)
Theorem C208_iterators : forall (T : Type) (lt eqb : T -> T -> bool) (show : T -> list ascii), strict_total lt -> decides eqb ->
  forall prog s e I s' ev, nstands lt s e I -> Forall nint_stmt prog -> n_run lt eqb show prog s = Ok (s', ev) ->
  exists e' I', nrun lt show prog e I e' I' ev /\ nstands lt s' e' I'.
Proof. exact @nrun_refines. Qed.
Print Assumptions C208_iterators.

(** Every run on mathematical sets is a run of the code. *)
Theorem C208_iterators_complete : forall (T : Type) (lt eqb : T -> T -> bool) (show : T -> list ascii), strict_total lt -> decides eqb ->
  forall prog s e I e' I' ev, nstands lt s e I -> Forall nint_stmt prog -> nrun lt show prog e I e' I' ev ->
  exists s', n_run lt eqb show prog s = Ok (s', ev) /\ nstands lt s' e' I'.
Proof. exact @nrun_complete. Qed.
Print Assumptions C208_iterators_complete.

(** A program runs to its end as mathematical sets do, or it is undefined at a statement that is a risk. *)
Theorem C208_otherwise_undefined : forall (T : Type) (lt eqb : T -> T -> bool) (show : T -> list ascii), strict_total lt -> decides eqb ->
  forall prog s e I, nstands lt s e I -> Forall nint_stmt prog ->
  (exists s' e' I' ev, n_run lt eqb show prog s = Ok (s', ev) /\ nrun lt show prog e I e' I' ev /\ nstands lt s' e' I') \/
  (exists u p c q e' I' ev, n_run lt eqb show prog s = UB u /\ prog = p ++ c :: q /\ nrun lt show p e I e' I' ev /\ nrisk lt c e' I').
Proof. exact @nrun_cases. Qed.
Print Assumptions C208_otherwise_undefined.

(** The reasons, and no others: an iterator that is lost or was never set, an end that is dereferenced or incremented, a begin that is decremented, iterators of different sets, a range that is backwards or of the set that is extended, a set moved to itself. *)
Theorem C208_undefined_reasons : forall (T : Type) (lt eqb : T -> T -> bool) (show : T -> list ascii), strict_total lt -> decides eqb ->
  forall c s e I, nstands lt s e I -> nint_stmt c ->
  ((exists u, n_step lt eqb show c s = UB u) <-> nrisk lt c e I).
Proof. exact @nstep_risk. Qed.
Print Assumptions C208_undefined_reasons.

Example C208_case : nstands Z.ltb (@nstate0 Z) (fun _ _ => False) (fun _ => Unset) /\
  exists s, n_run Z.ltb Z.eqb (fun _ => [])
    [NDo (TInit 0%nat [3; 1; 2; 7; 5]); NBegin 0 0; NRead 0; NNext 0; NNext 0; NRead 0; NFind 1 0 5; NRead 1; NBack 1; NPrev 1; NSame 0 1;
     NDo (TAdd 0%nat 4); NNext 0; NRead 0; NDo (TRemove 0%nat 5); NNext 0; NRead 0; NFind 2 0 5; NEnd 3 0; NSame 2 3; NBack 3;
     NRange 1 1 3; NDo (TSize 1%nat); NDo (TContains 1%nat 2); NRevRange 1 3 1; NDo (TContains 1%nat 3); NDo (TInit 1%nat []); NExtend 1 1 0; NDo (TSize 1%nat);
     NDo (TMove 2%nat 0%nat); NRead 0; NPrev 0; NRead 0; NAdd 0 0; NRemove 2 1; NBegin 1 2; NRead 1] nstate0 =
  Ok (s, [TElem 1; TElem 3; TElem 5; TElem 3; TBool true; TBool true; TElem 4; TBool true; TElem 7; TBool true; TElem 7;
          TNum 3; TBool false; TBool true; TNum 2; TElem 7; TElem 4; TBool true; TBool true; TElem 1]).
Proof.
  split.
  - constructor; [|intros v x a []|intros v; constructor|intros i; reflexivity].
    intros v. split; [split; [constructor|intros x; cbn; tauto]|cbn; unfold INT_MAX; lia].
  - apply seen_ok. vm_compute. reflexivity.
Qed.
Example C208_case_undefined : let run p := n_run Z.ltb Z.eqb (fun _ => []) (NDo (TInit 0%nat [3; 1; 2]) :: NDo (TInit 1%nat [4]) :: p) nstate0 in
  run [NRead 0] = UB BadDeref /\ run [NEnd 0 0; NRead 0] = UB BadDeref /\ run [NEnd 0 0; NNext 0] = UB BadDeref /\
  run [NBegin 0 0; NPrev 0] = UB BadDeref /\ run [NBegin 0 0; NBack 0] = UB BadDeref /\ run [NBegin 0 0; NBegin 1 1; NSame 0 1] = UB BadDeref /\
  run [NBegin 0 0; NEnd 1 0; NRange 1 1 0] = UB BadDeref /\ run [NBegin 0 0; NEnd 1 0; NExtend 0 0 1] = UB SelfRange /\
  run [NBegin 0 0; NDo (TRemove 0%nat 1); NRead 0] = UB BadDeref /\ run [NBegin 0 0; NDo (TCopy 0%nat 1%nat); NRead 0] = UB BadDeref /\
  run [NEnd 0 0; NDo (TMove 1%nat 0%nat); NCopy 1 0] = UB BadDeref /\ run [NEnd 0 0; NDo (TAndA 0%nat 1%nat); NBack 0] = UB BadDeref.
Proof. cbv zeta. repeat match goal with |- _ /\ _ => split end; vm_compute; reflexivity. Qed.

(** A range-for over a Set gives every element once, in increasing order. *)
Theorem C209_all_in_order : forall (T : Type) (lt eqb : T -> T -> bool) (show : T -> list ascii), strict_total lt -> decides eqb ->
  forall s e I i k v l fuel, nstands lt s e I -> i <> k -> enumerates lt l (e v) -> (length l < fuel)%nat ->
  exists s' I', set_for lt eqb show fuel i k v [NRead i] s = Ok (s', map TElem l) /\ nstands lt s' e I'.
Proof. exact @set_for_reads. Qed.
Print Assumptions C209_all_in_order.

(** A loop from rbegin to rend gives every element once, in decreasing order. *)
Theorem C209_reversed : forall (T : Type) (lt eqb : T -> T -> bool) (show : T -> list ascii), strict_total lt -> decides eqb ->
  forall s e I i k v l fuel, nstands lt s e I -> i <> k -> enumerates lt l (e v) -> (length l < fuel)%nat ->
  exists s' I', set_back lt eqb show fuel i k v [NBack i] s = Ok (s', map TElem (rev l)) /\ nstands lt s' e I'.
Proof. exact @set_back_reads. Qed.
Print Assumptions C209_reversed.

(** A range-for that adds every element to another Set makes the union; add returns whether the element was missing. *)
Theorem C209_adding : forall (T : Type) (lt eqb : T -> T -> bool) (show : T -> list ascii), strict_total lt -> decides eqb ->
  forall s e I i k v w l m fuel, nstands lt s e I -> i <> k -> v <> w -> enumerates lt l (e v) -> enumerates lt m (e w) -> len l + len m <= INT_MAX ->
  (length l < fuel)%nat ->
  exists s' e' I' bs, set_for lt eqb show fuel i k v [NAdd w i] s = Ok (s', map TBool bs) /\ nstands lt s' e' I' /\
    Forall2 (fun x b => tells b (~ e w x)) l bs /\ same (e' w) (either (e w) (e v)) /\ (forall u, u <> w -> same (e' u) (e u)).
Proof. exact @set_for_adds. Qed.
Print Assumptions C209_adding.

(** A range-for that removes every element from another Set makes the difference; remove returns whether the element was there. *)
Theorem C209_removing : forall (T : Type) (lt eqb : T -> T -> bool) (show : T -> list ascii), strict_total lt -> decides eqb ->
  forall s e I i k v w l fuel, nstands lt s e I -> i <> k -> v <> w -> enumerates lt l (e v) -> (length l < fuel)%nat ->
  exists s' e' I' bs, set_for lt eqb show fuel i k v [NRemove w i] s = Ok (s', map TBool bs) /\ nstands lt s' e' I' /\
    Forall2 (fun x b => tells b (e w x)) l bs /\ same (e' w) (only (e w) (e v)) /\ (forall u, u <> w -> same (e' u) (e u)).
Proof. exact @set_for_removes. Qed.
Print Assumptions C209_removing.

(** A range-for whose body keeps the set and both iterators runs its body once for every element, in increasing order. *)
Theorem C209_any_body : forall (T : Type) (lt eqb : T -> T -> bool) (show : T -> list ascii), strict_total lt -> decides eqb ->
  forall (Inv : list T -> list (tevent T) -> zstore T -> Prop) i k v l body, i <> k ->
  (forall d x r ev s e I, l = d ++ x :: r -> Inv d ev e -> nstands lt s e I -> enumerates lt l (e v) -> I i = At v x -> I k = Past v ->
    exists s' e' I' ev', n_run lt eqb show body s = Ok (s', ev') /\ nstands lt s' e' I' /\ Inv (d ++ [x]) (ev ++ ev') e' /\ enumerates lt l (e' v) /\
      I' i = At v x /\ I' k = Past v) ->
  forall fuel s e I, nstands lt s e I -> Inv [] [] e -> enumerates lt l (e v) -> (length l < fuel)%nat ->
  exists s' e' I' ev, set_for lt eqb show fuel i k v body s = Ok (s', ev) /\ nstands lt s' e' I' /\ Inv l ev e' /\ enumerates lt l (e' v) /\ I' i = Past v.
Proof. exact @for_rule. Qed.
Print Assumptions C209_any_body.

(** The Set made of begin and end is a copy, also when it replaces the set itself; so is the one made of rbegin and rend. *)
Theorem C209_range : forall (T : Type) (lt eqb : T -> T -> bool) (show : T -> list ascii), strict_total lt -> decides eqb ->
  forall s e I i j v w (back : bool), nstands lt s e I -> i <> j ->
  exists s' e' I', n_run lt eqb show [NBegin i v; NEnd j v; if back then NRevRange w j i else NRange w i j] s = Ok (s', []) /\ nstands lt s' e' I' /\
    same (e' w) (e v) /\ (forall u, u <> w -> same (e' u) (e u)).
Proof. exact @range_all. Qed.
Print Assumptions C209_range.

(** The Set made of find(x) and end has the elements from x on. *)
Theorem C209_range_from : forall (T : Type) (lt eqb : T -> T -> bool) (show : T -> list ascii), strict_total lt -> decides eqb ->
  forall s e I i j v w x, nstands lt s e I -> i <> j -> e v x ->
  exists s' e' I', n_run lt eqb show [NFind i v x; NEnd j v; NRange w i j] s = Ok (s', []) /\ nstands lt s' e' I' /\
    same (e' w) (both (e v) (fun y => y = x \/ lt x y = true)) /\ (forall u, u <> w -> same (e' u) (e u)).
Proof. exact @range_from. Qed.
Print Assumptions C209_range_from.

(** extend with a range of another set makes the union and keeps all iterators. *)
Theorem C209_extending : forall (T : Type) (lt eqb : T -> T -> bool) (show : T -> list ascii), strict_total lt -> decides eqb ->
  forall s e I i j u w l n, nstands lt s e I -> between lt e u (I i) (I j) l -> u <> w -> card (e w) n -> n + Z.of_nat (length l) <= INT_MAX ->
  exists s' I', n_step lt eqb show (NExtend w i j) s = Ok (s', []) /\ nstands lt s' (zset e w (either (e w) (fun y => In y l))) I' /\
    (forall m v x, I m = At v x -> I' m = At v x) /\ (forall m v, I m = Past v -> I' m = Past v).
Proof. exact @range_extends. Qed.
Print Assumptions C209_extending.

(** A loop is undefined when it compares iterators that are not both in the same Set: lost ones, unset ones, or of two Sets. *)
Theorem C209_apart : forall (T : Type) (lt eqb : T -> T -> bool) (show : T -> list ascii), strict_total lt -> decides eqb ->
  forall s e I i j n body, nstands lt s e I -> (~ exists v, whose (I i) = Some v /\ whose (I j) = Some v) ->
  exists u, n_loop lt eqb show (S n) i j body s = UB u.
Proof. exact @set_loop_apart. Qed.
Print Assumptions C209_apart.

Example C209_case_apart : let after p b := se <- n_run Z.ltb Z.eqb (fun _ => []) (NDo (TInit 0%nat [3; 1; 2]) :: NDo (TInit 1%nat [3; 1; 2]) :: p) nstate0 ;; b (fst se) in
  after [NBegin 0 0; NEnd 1 1] (n_loop Z.ltb Z.eqb (fun _ => []) 9 0 1 [NRead 0; NNext 0]) = UB BadDeref /\
  after [NBegin 0 0; NEnd 1 0; NDo (TRemove 0%nat 1)] (n_loop Z.ltb Z.eqb (fun _ => []) 9 0 1 [NRead 0; NNext 0]) = UB BadDeref /\
  after [NBegin 0 0] (n_loop Z.ltb Z.eqb (fun _ => []) 9 0 1 [NRead 0; NNext 0]) = UB BadDeref.
Proof. cbv zeta. repeat match goal with |- _ /\ _ => split end; vm_compute; reflexivity. Qed.

Example C209_case : let after b := se <- n_run Z.ltb Z.eqb (fun _ => []) [NDo (TInit 0%nat [3; 1; 2]); NDo (TInit 1%nat [8; 2])] nstate0 ;; b (fst se) in
  (exists s, after (set_for Z.ltb Z.eqb (fun _ => []) 4 0 1 0 [NRead 0]) = Ok (s, [TElem 1; TElem 2; TElem 3])) /\
  (exists s, after (set_back Z.ltb Z.eqb (fun _ => []) 4 0 1 0 [NBack 0]) = Ok (s, [TElem 3; TElem 2; TElem 1])) /\
  (exists s, after (fun s => se <- set_for Z.ltb Z.eqb (fun _ => []) 4 0 1 0 [NAdd 1 0] s ;; n_run Z.ltb Z.eqb (fun _ => []) [NDo (TSize 1%nat)] (fst se)) = Ok (s, [TNum 4])) /\
  (exists s, after (set_for Z.ltb Z.eqb (fun _ => []) 4 0 1 0 [NAdd 1 0]) = Ok (s, [TBool true; TBool false; TBool true])) /\
  (exists s, after (set_for Z.ltb Z.eqb (fun _ => []) 4 0 1 0 [NRemove 1 0]) = Ok (s, [TBool false; TBool true; TBool false])) /\
  (exists s, after (n_run Z.ltb Z.eqb (fun _ => []) [NFind 0 0 2; NEnd 1 0; NRange 2 0 1; NDo (TSize 2%nat); NDo (TContains 2%nat 3); NDo (TContains 2%nat 1); NExtend 1 0 1; NDo (TSize 1%nat)]) =
    Ok (s, [TNum 2; TBool true; TBool false; TNum 3])) /\
  after (set_for Z.ltb Z.eqb (fun _ => []) 3 0 1 0 [NRead 0]) = OutOfFuel.
Proof. cbv zeta. repeat match goal with |- _ /\ _ => split end; try apply seen_ok; vm_compute; reflexivity. Qed.
Example C209_case_range : between Z.ltb (fun _ x => In x [1; 2; 5]) 0 (At 0%nat 2) (Past 0%nat) [2; 5] /\ enumerates Z.ltb [1; 2; 5] (fun x => In x [1; 2; 5]) /\
  card (fun x => In x [1; 2; 5]) 3.
Proof.
  split; [|split].
  - split; auto. split; auto. split; [exact Logic.I|]. split; [repeat constructor|]. intros x. unfold both. cbn [from until In]. rewrite Z.ltb_lt. intuition lia.
  - split; [repeat constructor|]. intros x. tauto.
  - exists [1; 2; 5]. split; [repeat constructor; cbn; intuition congruence|]. split; [intros x; tauto|reflexivity].
Qed.

(** An iterator can be read after a statement exactly when its element is still there and its set was not assigned. *)
Theorem C210_survival : forall (T : Type) (lt eqb : T -> T -> bool) (show : T -> list ascii), strict_total lt -> decides eqb ->
  forall c s e I i v x e' ev, nstands lt s e I -> tint_stmt c -> zstep lt show c e e' ev -> I i = At v x -> (forall a b, c <> TMove a b) ->
  (~ assigned c e v /\ e' v x -> exists s', n_run lt eqb show [NDo c; NRead i] s = Ok (s', ev ++ [TElem x])) /\
  (assigned c e v \/ ~ e' v x -> n_run lt eqb show [NDo c; NRead i] s = UB BadDeref).
Proof. exact @read_after. Qed.
Print Assumptions C210_survival.

(** An iterator to an element of a set that is moved is an iterator to that element in the other set. *)
Theorem C210_moved : forall (T : Type) (lt eqb : T -> T -> bool) (show : T -> list ascii), strict_total lt -> decides eqb ->
  forall s e I i u w x, nstands lt s e I -> u <> w -> I i = At w x ->
  exists s', n_run lt eqb show [NDo (TMove u w); NRead i] s = Ok (s', [TElem x]) /\ exists I', nstands lt s' (zset (zset e u (e w)) w (@empty T)) I' /\ I' i = At u x.
Proof. exact @moved_read. Qed.
Print Assumptions C210_moved.

(** for (i = v.begin(), e = v.end(); i != e; ) { j = i++; if (f( *j)) v.remove( *j); } removes exactly the elements with f. *)
Theorem C210_filter : forall (T : Type) (lt eqb : T -> T -> bool) (show : T -> list ascii), strict_total lt -> decides eqb ->
  forall s e I i j k v f l fuel, nstands lt s e I -> i <> k -> i <> j -> j <> k -> enumerates lt l (e v) -> (length l < fuel)%nat ->
  exists s' e' I' s1, n_run lt eqb show [NBegin i v; NEnd k v] s = Ok (s1, []) /\
    n_loop lt eqb show fuel i k [NCopy j i; NNext i; NRemoveIf v j f] s1 = Ok (s', map (fun _ => TBool true) (filter f l)) /\ nstands lt s' e' I' /\
    same (e' v) (both (e v) (fun y => f y = false)) /\ (forall u, u <> v -> same (e' u) (e u)).
Proof. exact @filter_loop. Qed.
Print Assumptions C210_filter.

(** for (x : v) v.add(f(x)), where f never goes down and stays in a finite set, ends with all that f gives of the elements, however often it is applied. *)
Theorem C210_closure : forall (T : Type) (lt eqb : T -> T -> bool) (show : T -> list ascii), strict_total lt -> decides eqb ->
  forall s e I i k v f C, nstands lt s e I -> i <> k -> (forall x, e v x -> In x C) -> (forall x, In x C -> In (f x) C) ->
  (forall x, In x C -> lt x (f x) = true \/ f x = x) -> len C < INT_MAX ->
  exists s' e' I' ev, set_for lt eqb show (S (length C)) i k v [NAddF v i f] s = Ok (s', ev) /\ nstands lt s' e' I' /\
    (forall y, e' v y <-> exists n x, e v x /\ y = times f n x) /\ (forall u, u <> v -> same (e' u) (e u)).
Proof. exact @closure_loop. Qed.
Print Assumptions C210_closure.

Example C210_case : let after b := se <- n_run Z.ltb Z.eqb (fun _ => []) [NDo (TInit 0%nat [3; 1; 2; 6])] nstate0 ;; b (fst se) in
  (exists s, after (fun s => se <- n_run Z.ltb Z.eqb (fun _ => []) [NBegin 0 0; NEnd 1 0] s ;; se <- n_loop Z.ltb Z.eqb (fun _ => []) 5 0 1 [NCopy 2 0; NNext 0; NRemoveIf 0 2 Z.even] (fst se) ;;
    set_for Z.ltb Z.eqb (fun _ => []) 5 0 1 0 [NRead 0] (fst se)) = Ok (s, [TElem 1; TElem 3])) /\
  (exists s, after (fun s => se <- set_for Z.ltb Z.eqb (fun _ => []) 22 0 1 0 [NAddF 0 0 (fun x => if x * 2 <=? 20 then x * 2 else x)] s ;; set_for Z.ltb Z.eqb (fun _ => []) 22 0 1 0 [NRead 0] (fst se)) =
    Ok (s, map TElem [1; 2; 3; 4; 6; 8; 12; 16])) /\
  (exists s, after (n_run Z.ltb Z.eqb (fun _ => []) [NFind 0 0 3; NDo (TAdd 0%nat 2); NDo (TPop 0%nat); NDo (TRemove 0%nat 6); NRead 0]) = Ok (s, [TBool false; TElem 1; TBool true; TElem 3])) /\
  after (n_run Z.ltb Z.eqb (fun _ => []) [NFind 0 0 3; NDo (TRemove 0%nat 3); NDo (TAdd 0%nat 3); NRead 0]) = UB BadDeref.
Proof. cbv zeta. repeat match goal with |- _ /\ _ => split end; try apply seen_ok; vm_compute; reflexivity. Qed.
Example C210_case_closed : let f x := if x * 2 <=? 20 then x * 2 else x in let C := map Z.of_nat (seq 1 20) in
  (forall x, In x C -> In (f x) C) /\ (forall x, In x C -> Z.ltb x (f x) = true \/ f x = x) /\ len C < INT_MAX.
Proof.
  cbv zeta. split; [|split].
  - apply Forall_forall. vm_compute. repeat (apply Forall_cons; [repeat ((left; reflexivity) || right)|]). apply Forall_nil.
  - apply Forall_forall. vm_compute. repeat (apply Forall_cons; [(left; reflexivity) || (right; reflexivity)|]). apply Forall_nil.
  - vm_compute. reflexivity.
Qed.

(** for (x : v) v.remove(x) is undefined for every set that is not empty. *)
Theorem C211_drain_refuted : forall (T : Type) (lt eqb : T -> T -> bool) (show : T -> list ascii), strict_total lt -> decides eqb ->
  forall s e I i k v x fuel, nstands lt s e I -> i <> k -> e v x ->
  set_for lt eqb show (S fuel) i k v [NRemove v i] s = UB BadDeref.
Proof. exact @drain_for. Qed.
Print Assumptions C211_drain_refuted.

(** for (x : v) v.add(f(x)) with a smaller f(x) does not reach what it adds: of 3 it makes 2, not 1 or 0. *)
Theorem C211_behind_refuted : forall show, exists s e I s' ev, nstands Z.ltb s e I /\ (forall x, e 0%nat x <-> x = 3) /\
  (forall fuel, (2 <= fuel)%nat -> set_for Z.ltb Z.eqb show fuel 0 1 0 [NAddF 0 0 (fun x => Z.max 0 (x - 1))] s = Ok (s', ev)) /\ nview s' 0%nat = [2; 3].
Proof. exact @behind_missed. Qed.
Print Assumptions C211_behind_refuted.

Example C211_case : let after b := se <- n_run Z.ltb Z.eqb (fun _ => []) [NDo (TInit 0%nat [3; 1; 2])] nstate0 ;; b (fst se) in
  after (set_for Z.ltb Z.eqb (fun _ => []) 9 0 1 0 [NRemove 0 0]) = UB BadDeref /\ after (set_for Z.ltb Z.eqb (fun _ => []) 9 0 1 0 [NRead 0; NDo (TClear 0%nat)]) = UB BadDeref /\
  (exists s, after (set_for Z.ltb Z.eqb (fun _ => []) 9 0 1 1 [NRemove 1 0]) = Ok (s, [])) /\
  (exists s, after (fun s => se <- set_for Z.ltb Z.eqb (fun _ => []) 9 0 1 0 [NAddF 0 0 (fun x => x - 5)] s ;; set_for Z.ltb Z.eqb (fun _ => []) 9 0 1 0 [NRead 0] (fst se)) = Ok (s, map TElem [-4; -3; -2; 1; 2; 3])).
Proof. cbv zeta. repeat match goal with |- _ /\ _ => split end; try apply seen_ok; vm_compute; reflexivity. Qed.
