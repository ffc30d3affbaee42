(** The same programs run on mathematical integers. No digit vectors, no loops. *)
From Coq Require Import ZArith Znumtheory List Bool Ascii.
From Verif Require Import Outcome IntModel IntSpec IntProgModel Show.
Import ListNotations.
Open Scope Z_scope.

Definition zstore := var -> Z.
Definition zset (e : zstore) (v : var) (z : Z) : zstore :=
  fun w => if Nat.eqb w v then z else e w.

Definition zcmp (o : cop) (a b : Z) : bool :=
  match o with
  | CEq => a =? b | CNe => negb (a =? b)
  | CLt => a <? b | CLe => a <=? b | CGt => b <? a | CGe => b <=? a
  end.

(** The result of a unary operation: a value or an exception. [sqrt] has no
    entry for n = k*k-1 >= 4 (the code does not return). *)
Inductive zun : uop -> Z -> Z + exn -> Prop :=
| zu_pos : forall a, zun UPos a (inl a)
| zu_neg : forall a, zun UNeg a (inl (- a))
| zu_abs : forall a, zun UAbs a (inl (Z.abs a))
| zu_fact : forall a, 0 <= a -> zun UFactorial a (inl (Zfact a))
| zu_fact_neg : forall a, a < 0 -> zun UFactorial a (inr NegativeFactorial)
| zu_next : forall a q, is_next_prime a q -> zun UNextPrime a (inl q)
| zu_sqrt : forall a, 0 <= a -> a < 4 \/ ~ pred_square a -> zun USqrt a (inl (Z.sqrt a))
| zu_sqrt_neg : forall a, a < 0 -> zun USqrt a (inr NegativeSqrt).

(** [digit_count a d]: [a] has [d] decimal digits, zero having none. *)
Definition digit_count (a d : Z) : Prop :=
  (a = 0 /\ d = 0) \/ (a <> 0 /\ 1 <= d /\ 10 ^ (d - 1) <= Z.abs a < 10 ^ d).

(** Binary operations. [log] has no entry for arguments of 2^31 or more digits. *)
Inductive zbin : bop -> Z -> Z -> Z + exn -> Prop :=
| zb_add : forall a b, zbin BAdd a b (inl (a + b))
| zb_sub : forall a b, zbin BSub a b (inl (a - b))
| zb_mul : forall a b, zbin BMul a b (inl (a * b))
| zb_div : forall a b, b <> 0 -> zbin BDiv a b (inl (Z.quot a b))
| zb_div0 : forall a, zbin BDiv a 0 (inr DivideByZero)
| zb_mod : forall a b r, b <> 0 -> rem_value a b r -> zbin BMod a b (inl r)
| zb_mod0 : forall a, zbin BMod a 0 (inr DivideByZero)
| zb_pow : forall a b, 0 <= b -> zbin BPow a b (inl (a ^ b))
| zb_pow_neg1 : forall a b, b < 0 -> Z.abs a = 1 -> zbin BPow a b (inl (a ^ (- b)))
| zb_pow_neg0 : forall b, b < 0 -> zbin BPow 0 b (inr MathDomain)
| zb_pow_neg : forall a b, b < 0 -> 2 <= Z.abs a -> zbin BPow a b (inl 0)
| zb_log : forall a b k d, 0 < a -> digit_count a d -> d <= INT_MAX -> 2 <= b -> 0 <= k -> b ^ k <= a < b ^ (k + 1) -> zbin BLog a b (inl k)
| zb_log_dom : forall a b, a <= 0 \/ b < 2 -> zbin BLog a b (inr MathDomain)
| zb_gcd : forall a b, zbin BGcd a b (inl (Z.gcd a b))
| zb_lcm : forall a b, zbin BLcm a b (inl (Z.lcm a b)).

Inductive zquery : qop -> Z -> bool -> Prop :=
| zq_zero : forall a b, (b = true <-> a = 0) -> zquery QZero a b
| zq_pos : forall a b, (b = true <-> 0 < a) -> zquery QPositive a b
| zq_neg : forall a b, (b = true <-> a < 0) -> zquery QNegative a b
| zq_even : forall a b, (b = true <-> Z.Even a) -> zquery QEven a b
| zq_odd : forall a b, (b = true <-> Z.Odd a) -> zquery QOdd a b
| zq_prime : forall a b, (b = true <-> prime a) -> zquery QPrime a b.

Definition bop_of (o : aop) : bop :=
  match o with AAdd => BAdd | ASub => BSub | AMul => BMul | ADiv => BDiv | AMod => BMod end.

Inductive zstep : stmt -> zstore -> zstore -> list event -> Prop :=
| z_int : forall v n e, INT_MIN < n <= INT_MAX -> zstep (SInt v n) e (zset e v n) []
| z_chars : forall v cs e z, literal cs = Some z -> zstep (SChars v cs) e (zset e v z) []
| z_chars_bad : forall v cs e, literal cs = None -> zstep (SChars v cs) e e [EThrow WrongIntegerLiteral]
| z_copy : forall v w e, zstep (SCopy v w) e (zset e v (e w)) []
| z_move : forall v w e, v <> w -> zstep (SMove v w) e (zset (zset e v (e w)) w 0) []
| z_assign : forall o v w e r, (o = AAdd -> v = w -> e v = 0) -> zbin (bop_of o) (e v) (e w) (inl r) ->
    zstep (SAssign o v w) e (zset e v r) []
| z_assign_throw : forall o v w e x, zbin (bop_of o) (e v) (e w) (inr x) ->
    zstep (SAssign o v w) e e [EThrow x]
| z_inc : forall v e, zstep (SInc v) e (zset e v (e v + 1)) []
| z_dec : forall v e, zstep (SDec v) e (zset e v (e v - 1)) []
| z_un : forall o v w e r, zun o (e w) (inl r) -> zstep (SUn o v w) e (zset e v r) []
| z_un_throw : forall o v w e x, zun o (e w) (inr x) -> zstep (SUn o v w) e e [EThrow x]
| z_bin : forall o v u w e r, zbin o (e u) (e w) (inl r) -> zstep (SBin o v u w) e (zset e v r) []
| z_bin_throw : forall o v u w e x, zbin o (e u) (e w) (inr x) -> zstep (SBin o v u w) e e [EThrow x]
| z_powmod : forall v b x m e, 0 <= e b -> e b <> 1 -> 0 < e x -> e m <> 0 ->
    zstep (SPowMod v b x m) e (zset e v (e b ^ e x mod Z.abs (e m))) []
| z_compare : forall o v w e, zstep (SCompare o v w) e e [EBool (zcmp o (e v) (e w))]
| z_query : forall o v e b, zquery o (e v) b -> zstep (SQuery o v) e e [EBool b]
| z_digits : forall v e d, digit_count (e v) d -> zstep (SDigits v) e e [ENum d]
| z_print : forall v e, zstep (SPrint v) e e [EText (show_int (e v))].

Inductive zrun : list stmt -> zstore -> zstore -> list event -> Prop :=
| zr_nil : forall e, zrun [] e e []
| zr_cons : forall c prog e e1 e2 ev1 ev2, zstep c e e1 ev1 -> zrun prog e1 e2 ev2 ->
    zrun (c :: prog) e e2 (ev1 ++ ev2).

(** Statements with defined behaviour at a state; everything else is covered. *)
Definition allowed (c : stmt) (e : zstore) : Prop :=
  match c with
  | SInt _ n => INT_MIN < n <= INT_MAX
  | SMove v w => v <> w
  | SAssign AAdd v w => v = w -> e v = 0
  | SUn USqrt _ w => e w < 4 \/ ~ pred_square (e w)
  | SBin BLog _ u w => exists d, digit_count (e u) d /\ d <= INT_MAX
  | SPowMod _ b x m => 0 <= e b /\ e b <> 1 /\ 0 < e x /\ e m <> 0
  | _ => True
  end.

(** Every variable is canonical and denotes the given integer. *)
Definition represents (s : store) (e : zstore) : Prop := forall v, repr (s v) (e v).
