(** What the properties about the distribution of [Int::random] speak of. *)
From Coq Require Import ZArith List.
From Verif Require Import Outcome IntModel IntSpec.
Import ListNotations.
Open Scope Z_scope.

(** The draws for [d] digits: a digit for each place, and one digit from 1 to 9 that is used if the first place gets 0. *)
Fixpoint digit_lists (n : nat) : list (list Z) :=
  match n with
  | O => [[]]
  | S k => flat_map (fun l => map (fun d => l ++ [d]) [0; 1; 2; 3; 4; 5; 6; 7; 8; 9]) (digit_lists k)
  end.
Definition draws (d : Z) : list (list Z * Z) := list_prod (digit_lists (Z.to_nat d)) [1; 2; 3; 4; 5; 6; 7; 8; 9].
(** The result of a draw is [v]. *)
Definition gives (d v : Z) (c : list Z * Z) : bool :=
  match int_random 0 (fun k => nth k (fst c) 0) (snd c) d with Ok x => value x =? v | _ => false end.
