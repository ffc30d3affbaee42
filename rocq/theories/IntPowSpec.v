(** What Int::pow gives with a modulus. *)
From Coq Require Import ZArith.
Open Scope Z_scope.

(** [a] has fewer decimal digits than [b]. *)
Definition fewer (a b : Z) : Prop := exists k, 0 <= k /\ Z.abs a < 10 ^ k <= Z.abs b.

(** The product of those of x, x^2 mod m, (x^2 mod m)^2 mod m, ... that belong to the binary digits 1 of e. *)
Fixpoint kept_bits (m x : Z) (e : positive) : Z :=
  match e with
  | xH => x
  | xO e' => kept_bits m (x * x mod m) e'
  | xI e' => x * kept_bits m (x * x mod m) e'
  end.
Definition kept (m x e : Z) : Z := match e with Zpos p => kept_bits m x p | _ => 1 end.
