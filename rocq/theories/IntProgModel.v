(** Programs over Int variables, run on the model of the code. *)
From Coq Require Import ZArith List Bool Ascii.
From Verif Require Import Outcome IntModel.
Import ListNotations.
Open Scope Z_scope.

Inductive aop := AAdd | ASub | AMul | ADiv | AMod.
Inductive uop := UPos | UNeg | UAbs | UFactorial | UNextPrime | USqrt.
Inductive bop := BAdd | BSub | BMul | BDiv | BMod | BPow | BLog | BGcd | BLcm.
Inductive cop := CEq | CNe | CLt | CLe | CGt | CGe.
Inductive qop := QZero | QPositive | QNegative | QEven | QOdd | QPrime.

Definition var := nat.

(** One statement of a client program; every statement is run inside its own
    [try]/[catch], so a program goes on after an exception. *)
Inductive stmt :=
| SInt (v : var) (n : Z)                 (* v = n;            int.hpp:161, 258 *)
| SChars (v : var) (cs : list ascii)     (* v = "...";        int.hpp:173, 258 *)
| SCopy (v w : var)                      (* v = w;            int.hpp:255 *)
| SMove (v w : var)                      (* v = std::move(w); int.hpp:258 *)
| SAssign (o : aop) (v w : var)          (* v += w; ...       int.hpp:339-539 *)
| SInc (v : var)                         (* ++v;              int.hpp:541 *)
| SDec (v : var)                         (* --v;              int.hpp:557 *)
| SUn (o : uop) (v w : var)              (* v = -w; v = Int::sqrt(w); ... *)
| SBin (o : bop) (v u w : var)           (* v = u + w; v = Int::gcd(u, w); ... *)
| SPowMod (v b e m : var)                (* v = Int::pow(b, e, m); *)
| SCompare (o : cop) (v w : var)         (* emit(v < w); ... *)
| SQuery (o : qop) (v : var)             (* emit(v.is_prime()); ... *)
| SDigits (v : var)                      (* emit(v.digits()); *)
| SPrint (v : var).                      (* std::cout << v; *)

(** What a client observes. *)
Inductive event :=
| EThrow (e : exn)
| EBool (b : bool)
| ENum (z : Z)
| EText (s : list ascii).

Definition store := var -> Int.
Definition set (s : store) (v : var) (x : Int) : store :=
  fun w => if Nat.eqb w v then x else s w.

(** int.hpp:578-595, 628-643, 646-675, 695-726: value-returning operations. *)
Definition eval_un (p : policy) (fuel : nat) (o : uop) (x : Int) : outcome Int :=
  match o with
  | UPos => Ok (int_pos x)
  | UNeg => Ok (int_neg x)
  | UAbs => Ok (int_abs x)
  | UFactorial => int_factorial p fuel x
  | UNextPrime => int_next_prime p fuel x
  | USqrt => int_sqrt p fuel x
  end.

Definition eval_bin (p : policy) (fuel : nat) (o : bop) (x y : Int) : outcome Int :=
  match o with
  | BAdd => int_add p x y
  | BSub => int_sub p x y
  | BMul => int_mul p x y
  | BDiv => int_div p x y
  | BMod => int_mod p x y
  | BPow => int_pow p fuel x y (MkInt 0 [])
  | BLog => int_log p fuel x y
  | BGcd => int_gcd p fuel x y
  | BLcm => int_lcm p fuel x y
  end.

Definition eval_cmp (o : cop) (x y : Int) : outcome bool :=
  match o with
  | CEq => Ok (int_eqb x y)
  | CNe => Ok (negb (int_eqb x y))
  | CLt => int_lt x y
  | CLe => int_le x y
  | CGt => int_gt x y
  | CGe => int_ge x y
  end.

Definition eval_query (p : policy) (fuel : nat) (o : qop) (x : Int) : outcome bool :=
  match o with
  | QZero => Ok (is_zero x)
  | QPositive => Ok (is_positive x)
  | QNegative => Ok (is_negative x)
  | QEven => is_even x
  | QOdd => is_odd x
  | QPrime => int_is_prime p fuel x
  end.

(** Assign the result of a call; on an exception the target keeps its value. *)
Definition assign (s : store) (v : var) (o : outcome Int) : outcome (store * list event) :=
  match o with
  | Ok x => Ok (set s v x, [])
  | Throw e => Ok (s, [EThrow e])
  | UB u => UB u
  | OutOfFuel => OutOfFuel
  end.

(** A compound assignment: outcome and the object it leaves behind. *)
Definition assign_mut (s : store) (v : var) (r : outcome unit * Int) : outcome (store * list event) :=
  match r with
  | (Ok _, x) => Ok (set s v x, [])
  | (Throw e, x) => Ok (set s v x, [EThrow e])
  | (UB u, _) => UB u
  | (OutOfFuel, _) => OutOfFuel
  end.

Definition step (p : policy) (fuel : nat) (c : stmt) (s : store) : outcome (store * list event) :=
  match c with
  | SInt v n => assign s v (int_of_int n)
  | SChars v cs => assign s v (int_of_chars cs)
  | SCopy v w => Ok (set s v (s w), [])
  | SMove v w =>
      if Nat.eqb v w then UB SelfRange   (* self-move: std::vector gives no guarantee *)
      else let (d, src) := int_move (s w) in Ok (set (set s v d) w src, [])
  | SAssign AAdd v w =>
      assign s v (if Nat.eqb v w then int_add_assign_self p (s v) else int_add_assign p (s v) (s w))
  | SAssign ASub v w => assign s v (int_sub_assign p (s v) (s w))
  | SAssign AMul v w => assign s v (int_mul_assign p (s v) (s w))
  | SAssign ADiv v w => assign_mut s v (int_div_assign p (s v) (s w))
  | SAssign AMod v w => assign_mut s v (int_mod_assign p (s v) (s w))
  | SInc v => assign s v (int_inc (s v))
  | SDec v => assign s v (int_dec (s v))
  | SUn o v w => assign s v (eval_un p fuel o (s w))
  | SBin o v u w => assign s v (eval_bin p fuel o (s u) (s w))
  | SPowMod v b e m => assign s v (int_pow p fuel (s b) (s e) (s m))
  | SCompare o v w => b <- eval_cmp o (s v) (s w) ;; Ok (s, [EBool b])
  | SQuery o v => b <- eval_query p fuel o (s v) ;; Ok (s, [EBool b])
  | SDigits v => d <- int_digits (s v) ;; Ok (s, [ENum d])
  | SPrint v => Ok (s, [EText (int_print (s v))])
  end.

Fixpoint run (p : policy) (fuel : nat) (prog : list stmt) (s : store) : outcome (store * list event) :=
  match prog with
  | [] => Ok (s, [])
  | c :: prog' =>
      r <- step p fuel c s ;;
      r' <- run p fuel prog' (fst r) ;;
      Ok (fst r', snd r ++ snd r')
  end.
