(** Walks in a graph that gives the neighbours of each vertex. *)
From Coq Require Import ZArith List.
Import ListNotations.
Open Scope Z_scope.

(** [v] is reached from [start] by [n] steps. *)
Inductive walk {K} (g : K -> option (list K)) (start : K) : Z -> K -> Prop :=
| walk_here : walk g start 0 start
| walk_on : forall n v ws w, walk g start n v -> g v = Some ws -> In w ws -> walk g start (n + 1) w.
(** The least number of steps. *)
Definition distance {K} (g : K -> option (list K)) (start v : K) (n : Z) : Prop :=
  walk g start n v /\ forall k, walk g start k v -> n <= k.
