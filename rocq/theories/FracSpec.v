(** Specification vocabulary for [Fraction]: Coq's rationals [Q]. *)
From Coq Require Import ZArith QArith Qreduction List Bool Ascii.
From Verif Require Import Outcome IntModel IntProgModel Show FracModel FracProgModel.
Import ListNotations.
Open Scope Z_scope.

(** Lowest terms with a positive denominator, both parts ints other than INT_MIN. *)
Definition valid (f : Fraction) : Prop :=
  0 < den f <= INT_MAX /\ - INT_MAX <= num f <= INT_MAX /\ Z.gcd (num f) (den f) = 1.

(** The rational a fraction denotes. *)
Definition qval (f : Fraction) : Q := num f # Z.to_pos (den f).

(** The call returns a fraction in lowest terms equal to [q]. *)
Definition is_rat (o : outcome Fraction) (q : Q) : Prop :=
  exists r, o = Ok r /\ valid r /\ (qval r == q)%Q.

(** An int. *)
Definition fits (z : Z) : Prop := INT_MIN <= z <= INT_MAX.
(** An int whose magnitude is an int. *)
Definition fits1 (z : Z) : Prop := - INT_MAX <= z <= INT_MAX.

(** [r] is the truncated remainder of [a] by [b]. *)
Definition qrem (a b r : Q) : Prop :=
  exists t : Z, (a == inject_Z t * b + r)%Q /\ (Qabs.Qabs r < Qabs.Qabs b)%Q /\ (0 <= a * r)%Q.

(** [g] generates the integer combinations of [a] and [b]. *)
Definition qgcd (a b g : Q) : Prop :=
  (0 <= g)%Q /\ (exists i : Z, a == inject_Z i * g)%Q /\ (exists j : Z, b == inject_Z j * g)%Q /\
  (exists u v : Z, g == inject_Z u * a + inject_Z v * b)%Q.

(** [l] is the least common multiple of [a] and [b]. *)
Definition qlcm (a b l : Q) : Prop :=
  (0 <= l)%Q /\
  ((a == 0 \/ b == 0) -> l == 0)%Q /\
  (~ (a == 0) -> ~ (b == 0) ->
    (exists i : Z, l == inject_Z i * a) /\ (exists j : Z, l == inject_Z j * b) /\
    (forall m, (exists i : Z, m == inject_Z i * a) -> (exists j : Z, m == inject_Z j * b) -> exists k : Z, m == inject_Z k * l))%Q.

(** The text of a rational: numerator, then the denominator unless it is 1. *)
Definition qtext (q : Q) : list ascii :=
  let r := Qred q in
  match Qden r with
  | 1%positive => show_int (Qnum r)
  | d => show_int (Qnum r) ++ "/"%char :: show_int (Zpos d)
  end.

(** ** Programs on rationals *)
Definition qstore := var -> Q.
Definition qset (e : qstore) (v : var) (q : Q) : qstore := fun w => if Nat.eqb w v then q else e w.

Inductive qop2 : fun2 -> Q -> Q -> outcome Q -> Prop :=
| q_add : forall a b, qop2 (FOp AAdd) a b (Ok (a + b)%Q)
| q_sub : forall a b, qop2 (FOp ASub) a b (Ok (a - b)%Q)
| q_mul : forall a b, qop2 (FOp AMul) a b (Ok (a * b)%Q)
| q_div : forall a b, (~ b == 0)%Q -> qop2 (FOp ADiv) a b (Ok (a / b)%Q)
| q_div0 : forall a b, (b == 0)%Q -> qop2 (FOp ADiv) a b (Throw DivideByZero)
| q_mod : forall a b r, (~ b == 0)%Q -> qrem a b r -> qop2 (FOp AMod) a b (Ok r)
| q_mod0 : forall a b, (b == 0)%Q -> qop2 (FOp AMod) a b (Throw DivideByZero)
| q_gcd : forall a b g, qgcd a b g -> qop2 FGcd a b (Ok g)
| q_lcm : forall a b l, qlcm a b l -> qop2 FLcm a b (Ok l).

Definition qfun1 (o : fun1) (a : Q) : Q :=
  match o with FPos => a | FNeg => (- a)%Q | FAbs => Qabs.Qabs a end.

Definition qord (o : ford) (a b : Q) (r : bool) : Prop :=
  match o with
  | FLt => r = true <-> (a < b)%Q
  | FLe => r = true <-> (a <= b)%Q
  | FGt => r = true <-> (b < a)%Q
  | FGe => r = true <-> (b <= a)%Q
  end.

Inductive qstep : fstmt -> qstore -> qstore -> list event -> Prop :=
| qs_make : forall e v n d, d <> 0 -> qstep (FMake v n d) e (qset e v (inject_Z n / inject_Z d)%Q) []
| qs_make0 : forall e v n, qstep (FMake v n 0) e e [EThrow DivideByZero]
| qs_copy : forall e v w, qstep (FCopy v w) e (qset e v (e w)) []
| qs_move : forall e v w, qstep (FMove v w) e (qset (qset e v (e w)) w 0%Q) []
| qs_assign : forall e o v w q, qop2 (FOp o) (e v) (e w) (Ok q) -> qstep (FAssign o v w) e (qset e v q) []
| qs_assign_throw : forall e o v w x, qop2 (FOp o) (e v) (e w) (Throw x) -> qstep (FAssign o v w) e e [EThrow x]
| qs_inc : forall e v, qstep (FInc v) e (qset e v (e v + 1)%Q) []
| qs_dec : forall e v, qstep (FDec v) e (qset e v (e v - 1)%Q) []
| qs_un : forall e o v w, qstep (FUn o v w) e (qset e v (qfun1 o (e w))) []
| qs_bin : forall e o v u w q, qop2 o (e u) (e w) (Ok q) -> qstep (FBin o v u w) e (qset e v q) []
| qs_bin_throw : forall e o v u w x, qop2 o (e u) (e w) (Throw x) -> qstep (FBin o v u w) e e [EThrow x]
| qs_cmp : forall e o v w b, qord o (e v) (e w) b -> qstep (FCompare o v w) e e [EBool b]
| qs_zero : forall e v b, (b = true <-> e v == 0)%Q -> qstep (FIsZero v) e e [EBool b]
| qs_print : forall e v, qstep (FPrint v) e e [EText (qtext (e v))].

Inductive qrun : list fstmt -> qstore -> qstore -> list event -> Prop :=
| qr_nil : forall e, qrun [] e e []
| qr_cons : forall c prog e e1 e2 ev1 ev2, qstep c e e1 ev1 -> qrun prog e1 e2 ev2 ->
    qrun (c :: prog) e e2 (ev1 ++ ev2).

(** Every variable is a fraction in lowest terms denoting the rational. *)
Definition frepresents (s : fstore) (e : qstore) : Prop :=
  forall v, valid (s v) /\ (qval (s v) == e v)%Q.

(** ** Text *)

(** White space for [operator>>] of Fraction: every character up to the space. *)
Definition blank (c : ascii) : Prop := code c <= 32.
(** The text after a fraction: nothing, or a blank first. *)
Definition ends (rest : list ascii) : Prop := match rest with [] => True | c :: _ => blank c end.
Definition is_nil {A} (l : list A) : bool := match l with [] => true | _ => false end.

(** Constructor arguments are ints. *)
Definition int_args (c : fstmt) : Prop :=
  match c with FMake _ n d => fits n /\ fits d | _ => True end.

(** Largest integer whose square is an int. *)
Definition safe_bound : Z := 46340.
(** The scaled numerators over the common denominator. *)
Definition scaled_ok (a b : Fraction) : Prop :=
  Z.abs (num a) * den b <= safe_bound /\ Z.abs (num b) * den a <= safe_bound /\ den a * den b <= safe_bound.

(** Small operands. *)
Definition small (f : Fraction) : Prop := Z.abs (num f) <= 32767 /\ den f <= 32767.
