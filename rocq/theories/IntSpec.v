(** Specification vocabulary for [Int], independent of the algorithms in
    IntModel.v: which objects are canonical and which integer they denote. *)
From Coq Require Import ZArith Znumtheory List Bool Factorial.
From Verif Require Import Outcome IntModel.
Import ListNotations.
Open Scope Z_scope.

(** Value of a little-endian digit list. *)
Definition val (l : list Z) : Z := fold_right (fun d acc => d + 10 * acc) 0 l.

Definition digit (d : Z) : Prop := 0 <= d <= 9.

(** Canonical representation: digits 0..9, no leading zero, sign in {-1,0,1},
    sign zero exactly when there are no digits. *)
Definition canonical (x : Int) : Prop :=
  Forall digit (chunks x) /\
  last (chunks x) 1 <> 0 /\
  (sign x = -1 \/ sign x = 0 \/ sign x = 1) /\
  (sign x = 0 <-> chunks x = []).

(** The integer an object denotes. *)
Definition value (x : Int) : Z := sign x * val (chunks x).

(** [x] is the canonical representation of [z]. *)
Definition repr (x : Int) (z : Z) : Prop := canonical x /\ value x = z.

(** Operation [o] returns, with result the canonical representation of [z]. *)
Definition returns (o : outcome Int) (z : Z) : Prop := exists r, o = Ok r /\ repr r z.

(** ** Decimal literals *)
From Coq Require Import Ascii.

Definition digit_of (c : ascii) : option Z :=
  match c with
  | "0"%char => Some 0 | "1"%char => Some 1 | "2"%char => Some 2 | "3"%char => Some 3
  | "4"%char => Some 4 | "5"%char => Some 5 | "6"%char => Some 6 | "7"%char => Some 7
  | "8"%char => Some 8 | "9"%char => Some 9 | _ => None
  end.

(** Digits read left to right, most significant first; [None] on a non-digit. *)
Fixpoint dec_of (acc : Z) (s : list ascii) : option Z :=
  match s with
  | [] => Some acc
  | c :: s' => match digit_of c with Some d => dec_of (10 * acc + d) s' | None => None end
  end.

(** The integer a literal denotes: optional sign, at least one digit. *)
Definition literal (s : list ascii) : option Z :=
  match s with
  | [] => None
  | "+"%char :: ds => match ds with [] => None | _ => dec_of 0 ds end
  | "-"%char :: ds => match ds with [] => None | _ => option_map Z.opp (dec_of 0 ds) end
  | _ => dec_of 0 s
  end.

(** Usual notation: "0", or an optional minus and digits without leading zero. *)
Definition usual_notation (s : list ascii) : Prop :=
  s = ["0"%char] \/
  exists c ds, (s = c :: ds \/ s = "-"%char :: c :: ds) /\
    (exists d, digit_of c = Some d /\ d <> 0) /\ Forall (fun c => digit_of c <> None) ds.

(** A loop with enough fuel returns the canonical representation of [z]. *)
Definition computes (f : nat -> outcome Int) (z : Z) : Prop :=
  exists r, converges f (Ok r) /\ repr r z.

(** ** Number theory *)

(** n! *)
Definition Zfact (n : Z) : Z := Z.of_nat (fact (Z.to_nat n)).

(** [q] is the least prime above [n]. *)
Definition is_next_prime (n q : Z) : Prop :=
  prime q /\ n < q /\ forall r, n < r < q -> ~ prime r.

(** One less than a perfect square. *)
Definition pred_square (n : Z) : Prop := exists k, n + 1 = k * k.

(** Value of [a % b]: [a] when [a] has fewer digits, else |a| mod |b|. *)
Definition rem_value (a b : Z) (r : Z) : Prop :=
  ((exists k, 0 <= k /\ Z.abs a < 10 ^ k <= Z.abs b) -> r = a) /\
  (~ (exists k, 0 <= k /\ Z.abs a < 10 ^ k <= Z.abs b) -> r = Z.abs a mod Z.abs b).
