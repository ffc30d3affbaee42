(** The distribution of Int::random: C262, C263. *)
From Coq Require Import ZArith List Bool Lia.
From Verif Require Import Outcome IntModel IntSpec IntProgSpec RandomModel RandomSpec Random.
Import ListNotations.
Open Scope Z_scope.

(** Of the equally likely draws for [d] digits, ten give any particular number of [d] digits. *)
Theorem C262_equal : forall d v, 0 < v -> digit_count v d -> length (filter (gives d v) (draws d)) = 10%nat.
Proof. exact equally_likely. Qed.
Print Assumptions C262_equal.

(** [draws d] are all draws, each once. *)
Theorem C262_draws : forall d, NoDup (draws d) /\
  (forall l m, In (l, m) (draws d) <-> length l = Z.to_nat d /\ Forall (fun k => 0 <= k <= 9) l /\ 1 <= m <= 9).
Proof. exact draws_all. Qed.
Print Assumptions C262_draws.

(** Without argument, the number of digits is drawn first. *)
Theorem C262_default : forall n l dg most, 0 <= n -> int_random n dg most (-1) = int_random l dg most n.
Proof. exact default_draw. Qed.
Print Assumptions C262_default.

Example C262_example : digit_count 407 3 /\ length (draws 3) = (9 * 1000)%nat /\ filter (gives 3 407) (draws 3) =
  [([7; 0; 0], 4); ([7; 0; 4], 1); ([7; 0; 4], 2); ([7; 0; 4], 3); ([7; 0; 4], 4); ([7; 0; 4], 5); ([7; 0; 4], 6); ([7; 0; 4], 7); ([7; 0; 4], 8); ([7; 0; 4], 9)].
Proof. split; [right; lia|]. vm_compute. auto. Qed.

(** The generator is seeded with 32 bits: whatever it makes of them, some number of [d] digits is never returned if [d] is 10 or more. *)
Theorem C263_refuted : forall gen d, 10 <= d -> exists v, 0 < v /\ digit_count v d /\
  forall seed x, 0 <= seed < 2 ^ 32 -> int_random_seeded gen seed d = Ok x -> value x <> v.
Proof. exact never_returned. Qed.
Print Assumptions C263_refuted.

(** The same without argument. *)
Theorem C263_default_refuted : forall gen n, 10 <= n -> exists v, 0 < v /\ digit_count v n /\
  forall seed x, 0 <= seed < 2 ^ 32 -> int_random_seeded gen seed (-1) = Ok x -> value x <> v.
Proof. exact never_default. Qed.
Print Assumptions C263_default_refuted.

(** A generator for which the seeds give many different numbers. *)
Example C263_example : exists gen, int_random_seeded gen 4294967295 10 = Ok (MkInt 1 [5; 9; 2; 7; 6; 9; 4; 9; 2; 4]) /\
  int_random_seeded gen 7 10 = Ok (MkInt 1 [7; 0; 0; 0; 0; 0; 0; 0; 0; 9]).
Proof. exists (fun seed => (10, fun k => (seed / 10 ^ Z.of_nat k) mod 10, 9)). split; reflexivity. Qed.
