(** Vocabulary for the client programs of ClientModel.v. *)
From Coq Require Import ZArith List Bool.
From Verif Require Import Outcome ListSpec.
Import ListNotations.
Open Scope Z_scope.

(** How often [k] occurrences in [ws]. *)
Definition occurrences {K} (eqk : K -> K -> bool) (ws : list K) (k : K) : Z := Z.of_nat (length (filter (eqk k) ws)).
(** The words of [ws] with the number of their occurrences. *)
Definition counts {K} (eqk : K -> K -> bool) (ws : list K) : K -> option Z :=
  fun k => if occurrences eqk ws k =? 0 then None else Some (occurrences eqk ws k).

(** The seat, from 0, of the one who stays when every [k]-th of a circle of [n] leaves. *)
Fixpoint seat (k : Z) (n : nat) : Z :=
  match n with
  | O => 0
  | S n' => match n' with O => 0 | _ => (seat k n' + k) mod Z.of_nat n end
  end.

(** The number with these digits in base [b], least significant first. *)
Definition in_base (b : Z) (ds : list Z) : Z := fold_right (fun d acc => d + b * acc) 0 ds.
