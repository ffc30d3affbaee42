(** Property C279: breadth-first search with Dict, List and Deque. Theorems only; the program is in SearchModel.v with its C++ text. *)
From Coq Require Import ZArith List Bool Lia.
From Verif Require Import Outcome IntModel IntSpec ListModel SetModel SetSpec SetMore DictModel DictSpec SearchModel SearchSpec Search.
Import ListNotations.
Open Scope Z_scope.

(** The loop ends and the Dict it leaves has exactly the vertices that can be reached, each with the least number of steps. *)
Theorem C279_distances : forall (K : Type) (ltk : K -> K -> bool), strict_total ltk -> forall graph g start, listing ltk graph g ->
  (forall v ws w, g v = Some ws -> In w ws -> has g w) -> has g start -> Z.of_nat (length graph) < INT_MAX ->
  forall fuel, (length graph < fuel)%nat ->
  exists dist D, distances ltk fuel graph start = Ok dist /\ listing ltk dist D /\ forall k d, D k = Some d <-> distance g start k d.
Proof. exact @distances_ok. Qed.
Print Assumptions C279_distances.

Example C279_case : strict_total Z.ltb /\
  (let graph := [(1, [2; 3]); (2, [1; 4]); (3, [4; 3]); (4, [5]); (5, []); (6, [1])] in
   let g := fun k => nth (Z.to_nat (k - 1)) (map (fun e => if Z.eqb (fst e) k then Some (snd e) else None) graph) None in
   listing Z.ltb graph g /\ (forall v ws w, g v = Some ws -> In w ws -> has g w) /\ has g 1 /\
   distances Z.ltb 7 graph 1 = Ok [(1, 0); (2, 1); (3, 1); (4, 2); (5, 3)] /\ distances Z.ltb 7 graph 6 = Ok [(1, 1); (2, 2); (3, 2); (4, 3); (5, 4); (6, 0)]).
Proof.
  split; [exact Zltb_total|]. intros graph g.
  assert (V: forall k, has g k -> k = 1 \/ k = 2 \/ k = 3 \/ k = 4 \/ k = 5 \/ k = 6).
  { intros k (ws & H). unfold g, graph in H. cbn [map fst snd] in H.
    destruct (Z.to_nat (k - 1)) as [|[|[|[|[|[|[|n]]]]]]]; cbn [nth] in H; try discriminate; (match type of H with context [Z.eqb ?a k] => destruct (Z.eqb_spec a k); [lia|discriminate] end). }
  split; [split|].
  - repeat constructor.
  - intros k ws. split; [cbn; intuition (match goal with E : (_, _) = (_, _) |- _ => injection E as <- <- end; reflexivity)|].
    intros H. destruct (V k (ex_intro _ ws H)) as [-> | [-> | [-> | [-> | [-> | ->]]]]]; injection H as <-; cbn; tauto.
  - split; [|split; [exists [2; 3]; reflexivity|split; reflexivity]].
    intros v ws w H W. destruct (V v (ex_intro _ ws H)) as [-> | [-> | [-> | [-> | [-> | ->]]]]]; injection H as <-; cbn in W;
      repeat (destruct W as [<- | W]; [eexists; reflexivity|]); destruct W.
Qed.
