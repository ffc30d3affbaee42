(** Programs over Fraction variables, run on the model of the code. *)
From Coq Require Import ZArith List Bool Ascii.
From Verif Require Import Outcome IntModel IntProgModel FracModel.
Import ListNotations.
Open Scope Z_scope.

Inductive fun1 := FPos | FNeg | FAbs.
Inductive fun2 := FOp (o : aop) | FGcd | FLcm.
Inductive ford := FLt | FLe | FGt | FGe.

Inductive fstmt :=
| FMake (v : var) (n d : Z)            (* v = Fraction(n, d); fraction.hpp:30 *)
| FCopy (v w : var)                    (* v = w;              fraction.hpp:85 *)
| FMove (v w : var)                    (* v = std::move(w);   fraction.hpp:88 *)
| FAssign (o : aop) (v w : var)        (* v += w; ...         fraction.hpp:126-153 *)
| FInc (v : var)                       (* ++v;                fraction.hpp:156 *)
| FDec (v : var)                       (* --v;                fraction.hpp:162 *)
| FUn (o : fun1) (v w : var)           (* v = -w; ...         fraction.hpp:172-187 *)
| FBin (o : fun2) (v u w : var)        (* v = u + w; v = Fraction::gcd(u, w); ... *)
| FCompare (o : ford) (v w : var)      (* emit(v < w); ...    fraction.hpp:67 *)
| FIsZero (v : var)                    (* emit(v == 0);       *)
| FPrint (v : var).                    (* std::cout << v;     fraction.hpp:243 *)

Definition fstore := var -> Fraction.
Definition fset (s : fstore) (v : var) (x : Fraction) : fstore :=
  fun w => if Nat.eqb w v then x else s w.

Definition frac_op (o : aop) : Fraction -> Fraction -> outcome Fraction :=
  match o with AAdd => frac_add | ASub => frac_sub | AMul => frac_mul | ADiv => frac_div | AMod => frac_mod end.

Definition frac_fun1 (o : fun1) (x : Fraction) : outcome Fraction :=
  match o with FPos => Ok (frac_pos x) | FNeg => frac_neg x | FAbs => frac_abs x end.

Definition frac_fun2 (fuel : nat) (o : fun2) (x y : Fraction) : outcome Fraction :=
  match o with FOp a => frac_op a x y | FGcd => frac_gcd fuel x y | FLcm => frac_lcm fuel x y end.

Definition frac_ord (o : ford) : Fraction -> Fraction -> outcome bool :=
  match o with FLt => frac_lt | FLe => frac_le | FGt => frac_gt | FGe => frac_ge end.

(** Assign the result of a call; on an exception the target keeps its value. *)
Definition fassign (s : fstore) (v : var) (o : outcome Fraction) : outcome (fstore * list event) :=
  match o with
  | Ok x => Ok (fset s v x, [])
  | Throw e => Ok (s, [EThrow e])
  | UB u => UB u
  | OutOfFuel => OutOfFuel
  end.
(** A compound assignment: outcome and the object it leaves behind. *)
Definition fassign_mut (s : fstore) (v : var) (r : outcome unit * Fraction) : outcome (fstore * list event) :=
  match r with
  | (Ok _, x) => Ok (fset s v x, [])
  | (Throw e, x) => Ok (fset s v x, [EThrow e])
  | (UB u, _) => UB u
  | (OutOfFuel, _) => OutOfFuel
  end.

Definition fstep (fuel : nat) (c : fstmt) (s : fstore) : outcome (fstore * list event) :=
  match c with
  | FMake v n d => fassign s v (frac_make n d)
  | FCopy v w => Ok (fset s v (s w), [])
  | FMove v w => let (d, src) := frac_move (s w) in Ok (fset (fset s v d) w src, [])
  | FAssign o v w => fassign_mut s v (frac_assign (frac_op o) (s v) (s w))
  | FInc v => fassign_mut s v (frac_inc (s v))
  | FDec v => fassign_mut s v (frac_dec (s v))
  | FUn o v w => fassign s v (frac_fun1 o (s w))
  | FBin o v u w => fassign s v (frac_fun2 fuel o (s u) (s w))
  | FCompare o v w => b <- frac_ord o (s v) (s w) ;; Ok (s, [EBool b])
  | FIsZero v => Ok (s, [EBool (frac_is0 (s v))])
  | FPrint v => Ok (s, [EText (frac_print (s v))])
  end.

Fixpoint frun (fuel : nat) (prog : list fstmt) (s : fstore) : outcome (fstore * list event) :=
  match prog with
  | [] => Ok (s, [])
  | c :: prog' =>
      r <- fstep fuel c s ;;
      r' <- frun fuel prog' (fst r) ;;
      Ok (fst r', snd r ++ snd r')
  end.
