(** A client program that uses Dict, List and Deque together: breadth-first search. It is not part of the repository; it calls
    the models of the members it uses, and its C++ text is given above the definitions. *)
From Coq Require Import ZArith List Bool.
From Verif Require Import Outcome IntModel ListModel DequeModel DictModel.
Import ListNotations.
Open Scope Z_scope.

(** [for (auto&& w : graph[v]) if (dist.add(w, d + 1)) todo.push_back(w);] over the elements [ws] of the list;
    dict.hpp:193-198, deque.hpp:153-158 *)
Fixpoint visit {K} (ltk : K -> K -> bool) (d : Z) (ws : list K) (dist : list (K * Z)) (todo : list K) : outcome (list (K * Z) * list K) :=
  match ws with
  | [] => Ok (dist, todo)
  | w :: ws' =>
      d1 <- chk32 (d + 1) ;;
      match dict_add ltk w d1 dist with
      | (Ok true, dist1) =>
          match deq_push_back w todo with
          | (Ok _, todo1) => visit ltk d ws' dist1 todo1
          | (Throw e, _) => Throw e
          | (UB u, _) => UB u
          | (OutOfFuel, _) => OutOfFuel
          end
      | (Ok false, dist1) => visit ltk d ws' dist1 todo
      | (Throw e, _) => Throw e
      | (UB u, _) => UB u
      | (OutOfFuel, _) => OutOfFuel
      end
  end.

(** [while (!todo.is_empty()) { K v = todo.pop_front(); int d = dist[v]; ... }] with the loop above; deque.hpp:143-146, 181-188,
    dict.hpp:95-110 *)
Fixpoint search {K} (ltk : K -> K -> bool) (fuel : nat) (graph : list (K * list K)) (dist : list (K * Z)) (todo : list K)
  : outcome (list (K * Z)) :=
  if deq_is_empty todo then Ok dist
  else match fuel with
  | O => OutOfFuel
  | S f =>
      match deq_pop_front todo with
      | (Ok v, todo1) =>
          d <- dict_at ltk dist v ;; ws <- dict_at ltk graph v ;;
          r <- visit ltk d ws dist todo1 ;; search ltk f graph (fst r) (snd r)
      | (Throw e, _) => Throw e
      | (UB u, _) => UB u
      | (OutOfFuel, _) => OutOfFuel
      end
  end.

(** [Dict<K, int> dist; Deque<K> todo; dist.add(start, 0); todo.push_back(start);] and then the loop *)
Definition distances {K} (ltk : K -> K -> bool) (fuel : nat) (graph : list (K * list K)) (start : K) : outcome (list (K * Z)) :=
  match dict_add ltk start 0 [] with
  | (Ok _, dist) =>
      match deq_push_back start [] with
      | (Ok _, todo) => search ltk fuel graph dist todo
      | (Throw e, _) => Throw e
      | (UB u, _) => UB u
      | (OutOfFuel, _) => OutOfFuel
      end
  | (Throw e, _) => Throw e
  | (UB u, _) => UB u
  | (OutOfFuel, _) => OutOfFuel
  end.
