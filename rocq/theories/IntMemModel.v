(** Model of class [Int], sources/int.hpp, on a machine whose memory may run out. Definitions only.

    An [Int] object is a sign and a vector with a capacity. Every allocation of a program has a
    number; the [k]-th one succeeds or throws [std::bad_alloc]. A vector allocates when its
    contents grow beyond its capacity and when a non-empty vector is created; then either all of
    the vector operation happens or nothing. The digit loops allocate nothing and are those of
    IntModel.v. What a failing call leaves behind is part of the model. *)
From Coq Require Import ZArith List Bool Ascii.
From Verif Require Import Outcome IntModel IntProgModel.
Import ListNotations.
Open Scope Z_scope.

(** Why a call does not return: [std::bad_alloc], an exception of the library, undefined
    behaviour, or more rounds than the fuel. *)
Inductive fault : Type := FBadAlloc | FThrow (e : exn) | FUB (u : ub) | FFuel.
Inductive mres (A : Type) : Type := MRet (a : A) | MFail (f : fault).
Arguments MRet {A} a.
Arguments MFail {A} f.

(** [std::vector<int>]: contents and capacity *)
Record vec : Type := Vec { items : list Z; room : nat }.

(** int.hpp:25, 33 *)
Record MInt : Type := MI { msign : Z; mvec : vec }.

(** The object without its capacity *)
Definition forget (x : MInt) : Int := MkInt (msign x) (items (mvec x)).

(** The capacity never falls below the size. *)
Definition fits (x : MInt) : Prop := (length (items (mvec x)) <= room (mvec x))%nat.

(** A new object with the digits of [r] in a vector of the given capacity *)
Definition with_room (r : Int) (n : nat) : MInt := MI (sign r) (Vec (chunks r) n).

(** [Int()], and what a move leaves of its source *)
Definition mzero : MInt := MI 0 (Vec [] 0).

Section Memory.
(** [grow s n]: the capacity the library asks for when a vector of [s] elements needs room for [n]. *)
Variable grow : nat -> nat -> nat.
(** Whether the [k]-th allocation succeeds *)
Variable ok : nat -> bool.
Variable p : policy.

(** Computations that may allocate; the state is the number of the next allocation. *)
Definition am (A : Type) : Type := nat -> mres A * nat.
Definition aret {A} (a : A) : am A := fun k => (MRet a, k).
Definition afail {A} (f : fault) : am A := fun k => (MFail f, k).
Definition abind {A B} (m : am A) (f : A -> am B) : am B :=
  fun k => match m k with
           | (MRet a, k') => f a k'
           | (MFail e, k') => (MFail e, k')
           end.
Definition alloc : am unit := fun k => (if ok k then MRet tt else MFail FBadAlloc, S k).
Definition alift {A} (o : outcome A) : am A :=
  match o with
  | Ok a => aret a
  | Throw e => afail (FThrow e)
  | UB u => afail (FUB u)
  | OutOfFuel => afail FFuel
  end.

(** Member functions that change [*this] *)
Definition om (A : Type) : Type := MInt * nat -> mres A * (MInt * nat).
Definition oret {A} (a : A) : om A := fun s => (MRet a, s).
Definition obind {A B} (m : om A) (f : A -> om B) : om B :=
  fun s => match m s with
           | (MRet a, s') => f a s'
           | (MFail e, s') => (MFail e, s')
           end.
Definition oget : om MInt := fun s => (MRet (fst s), s).
Definition oput (x : MInt) : om unit := fun s => (MRet tt, (x, snd s)).
Definition olift {A} (m : am A) : om A := fun s => let (r, k) := m (snd s) in (r, (fst s, k)).

(** A member function called on a local variable; an exception destroys the variable. *)
Definition local (m : om unit) (x : MInt) : am MInt :=
  fun k => match m (x, k) with
           | (MRet _, (x', k')) => (MRet x', k')
           | (MFail e, (_, k')) => (MFail e, k')
           end.

Local Notation "x <~ m ;; f" := (abind m (fun x => f)) (at level 61, m at next level, right associativity).
Local Notation "m ~;; f" := (abind m (fun _ => f)) (at level 61, right associativity).
Local Notation "x <= m ;; f" := (obind m (fun x => f)) (at level 61, m at next level, right associativity).
Local Notation "m =;; f" := (obind m (fun _ => f)) (at level 61, right associativity).

(** ** std::vector<int> *)

(** A new vector with the given contents: copy construction, [vector(n)] *)
Definition v_new (l : list Z) : am vec :=
  match l with [] => aret (Vec [] 0) | _ => alloc ~;; aret (Vec l (length l)) end.
(** The contents grow to [l]: [push_back], [resize], [insert] at the end *)
Definition v_grow (v : vec) (l : list Z) : am vec :=
  if Nat.leb (length l) (room v) then aret (Vec l (room v))
  else alloc ~;; aret (Vec l (Nat.max (length l) (grow (length (items v)) (length l)))).
Definition v_push (v : vec) (x : Z) : am vec := v_grow v (items v ++ [x]).
Definition v_resize (v : vec) (n : nat) : am vec := v_grow v (resize (items v) n).
Definition v_append (v : vec) (l : list Z) : am vec := v_grow v (items v ++ l).
(** Copy assignment *)
Definition v_assign (v : vec) (l : list Z) : am vec :=
  if Nat.leb (length l) (room v) then aret (Vec l (room v))
  else alloc ~;; aret (Vec l (length l)).

(** ** Constructors *)

(** int.hpp:206 *)
Definition m_copy (x : MInt) : am MInt := v <~ v_new (items (mvec x)) ;; aret (MI (msign x) v).

(** int.hpp:165-169 *)
Fixpoint m_push_digits (fuel : nat) (n : Z) (v : vec) : am vec :=
  match fuel with
  | O => afail FFuel
  | S f => if n >? 0 then v' <~ v_push v (Z.rem n BASE) ;; m_push_digits f (Z.quot n BASE) v' else aret v
  end.
(** int.hpp:161-170 *)
Definition m_of_int (n : Z) : am MInt :=
  let s := if n =? 0 then 0 else if n >? 0 then 1 else -1 in
  a <~ alift (chk32 (Z.abs n)) ;;
  v <~ m_push_digits 11 a (Vec [] 0) ;;
  aret (MI s v).

(** int.hpp:173-203: after the test one [resize]; the digits are then stored in place. *)
Definition m_of_chars (cs : list ascii) : am MInt :=
  if negb (is_integer cs) then afail (FThrow WrongIntegerLiteral)
  else
    let n := match cs with c :: cs' => length (if is_sign_char c then cs' else cs) | [] => O end in
    v <~ v_resize (Vec [] 0) n ;;
    r <~ alift (int_of_chars cs) ;;
    aret (with_room r (room v)).

(** ** Assignment *)

(** int.hpp:255: the defaulted copy assignment assigns the members in order, the sign first. *)
Definition m_assign_copy (that : MInt) : om unit :=
  this <= oget ;;
  oput (MI (msign that) (mvec this)) =;;
  v <= olift (v_assign (mvec this) (items (mvec that))) ;;
  oput (MI (msign that) v).

(** int.hpp:258-266 from a temporary *)
Definition m_assign_move (that : MInt) : om unit := oput that.

(** ** Helpers and unary operators *)

(** int.hpp:36-51: [erase] at the end never allocates. *)
Definition m_trim (x : MInt) : MInt := with_room (trim (forget x)) (room (mvec x)).

(** int.hpp:76-95: the [push_back] comes first. *)
Definition m_abs_inc : om unit :=
  this <= oget ;;
  v <= olift (v_push (mvec this) 0) ;;
  oput (MI (msign this) v) =;;
  r <= olift (alift (abs_inc (forget this))) ;;
  oput (with_room r (room v)).

(** int.hpp:99-113 *)
Definition m_abs_dec : om unit :=
  this <= oget ;;
  r <= olift (alift (abs_dec (forget this))) ;;
  oput (with_room r (room (mvec this))).

(** int.hpp:584-589 *)
Definition m_neg (x : MInt) : am MInt := y <~ m_copy x ;; aret (MI (- msign y) (mvec y)).
(** int.hpp:592-595 *)
Definition m_abs (x : MInt) : am MInt := if msign x =? -1 then m_neg x else m_copy x.

(** ** Compound assignment *)

(** int.hpp:357-373: one [resize], then the loops *)
Definition m_add_same (that : MInt) : om unit :=
  this <= oget ;;
  v <= olift (v_resize (mvec this) (Nat.max (length (items (mvec this))) (length (items (mvec that))) + 1)) ;;
  oput (MI (msign this) v) =;;
  r <= olift (alift (add_same p (forget this) (forget that))) ;;
  oput (with_room r (room v)).

(** int.hpp:395-416: the digits of [rhs] are copied before anything changes; [swap] exchanges
    the vectors with their capacities. *)
Definition m_sub_same (that : MInt) : om unit :=
  this <= oget ;;
  b <= olift (v_new (items (mvec that))) ;;
  c <= olift (alift (abs_cmp (forget this) (forget that))) ;;
  r <= olift (alift (sub_same p (forget this) (forget that))) ;;
  oput (with_room r (if c =? -1 then room b else room (mvec this))).

(** int.hpp:339-374 ([minus = false]) and 377-417 ([minus = true]). The operand [-rhs] is a new
    object; [*this = rhs] copies, [*this = -rhs] moves. *)
Fixpoint m_add_sub (depth : nat) (minus : bool) (that : MInt) : om unit :=
  match depth with
  | O => olift (afail FFuel)
  | S d =>
      this <= oget ;;
      if minus then
        if (msign this =? 0) || (msign that =? 0)
        then if msign this =? 0 then t <= olift (m_neg that) ;; m_assign_move t else oret tt
        else if negb (msign this =? msign that) then t <= olift (m_neg that) ;; m_add_sub d false t
        else m_sub_same that
      else
        if (msign this =? 0) || (msign that =? 0)
        then if msign this =? 0 then m_assign_copy that else oret tt
        else if negb (msign this =? msign that) then t <= olift (m_neg that) ;; m_add_sub d true t
        else m_add_same that
  end.
Definition m_add_assign (that : MInt) : om unit := m_add_sub 2 false that.
Definition m_sub_assign (that : MInt) : om unit := m_add_sub 2 true that.

(** int.hpp:339-374, [x += x] *)
Definition m_add_assign_self : om unit :=
  this <= oget ;;
  if msign this =? 0 then oret tt
  else
    v <= olift (v_resize (mvec this) (length (items (mvec this)) + 1)) ;;
    oput (MI (msign this) v) =;;
    r <= olift (alift (int_add_assign_self p (forget this))) ;;
    oput (with_room r (room v)).

(** int.hpp:420-448. A vector of zeros is made and copied into [result]; [*this = result.trim()]
    copies, since [trim] returns a reference. *)
Definition m_mul_assign (that : MInt) : om unit :=
  this <= oget ;;
  if (msign this =? 0) || (msign that =? 0) then m_assign_move mzero
  else
    v <= olift (v_new (repeat 0 (length (items (mvec this)) + length (items (mvec that))))) ;;
    c <= olift (v_new (items v)) ;;
    r <= olift (alift (int_mul_assign p (forget this) (forget that))) ;;
    m_assign_copy (with_room r (room c)).

(** int.hpp:488-492 *)
Fixpoint m_div_digit (fuel : nat) (tmp : Int) (i : nat) (result : list Z) : om (list Z) :=
  match fuel with
  | O => olift (afail FFuel)
  | S f =>
      this <= oget ;;
      ge <= olift (alift (int_ge (forget this) tmp)) ;;
      if ge
      then r1 <= olift (alift (vadd p result i 1)) ;;
           m_sub_assign (with_room tmp 0) =;;
           m_div_digit f tmp i r1
      else oret result
  end.
(** int.hpp:481-493 *)
Fixpoint m_div_loop (n : nat) (tmp : Int) (result : list Z) : om (list Z) :=
  match n with
  | O => oret result
  | S i =>
      tc <= olift (alift (erase_first (chunks tmp))) ;;
      r <= m_div_digit 10 (MkInt (sign tmp) tc) i result ;;
      m_div_loop i (MkInt (sign tmp) tc) r
  end.

(** int.hpp:451-496. Three allocations before [*this] changes: the zeros of [tmp], their
    extension by the digits of [rhs], and [result]. *)
Definition m_div_assign (that : MInt) : om unit :=
  olift (alift (check_zero (msign that))) =;;
  this <= oget ;;
  d1 <= olift (alift (int_digits (forget this))) ;;
  d2 <= olift (alift (int_digits (forget that))) ;;
  if d1 <? d2 then m_assign_move mzero
  else
    let size := (length (items (mvec this)) - length (items (mvec that)) + 1)%nat in
    t1 <= olift (v_new (repeat 0 size)) ;;
    t2 <= olift (v_append t1 (items (mvec that))) ;;
    r0 <= olift (v_resize (Vec [] 0) size) ;;
    oput (MI 1 (mvec this)) =;;
    r <= m_div_loop size (MkInt 1 (items t2)) (items r0) ;;
    m_assign_copy (m_trim (MI (if msign this =? msign that then 1 else -1) (Vec r (room r0)))).

(** int.hpp:532-535 *)
Fixpoint m_mod_digit (fuel : nat) (tmp : Int) : om unit :=
  match fuel with
  | O => olift (afail FFuel)
  | S f =>
      this <= oget ;;
      ge <= olift (alift (int_ge (forget this) tmp)) ;;
      if ge then m_sub_assign (with_room tmp 0) =;; m_mod_digit f tmp
      else oret tt
  end.
(** int.hpp:525-536 *)
Fixpoint m_mod_loop (n : nat) (tmp : Int) : om unit :=
  match n with
  | O => oret tt
  | S n' =>
      tc <= olift (alift (erase_first (chunks tmp))) ;;
      m_mod_digit 10 (MkInt (sign tmp) tc) =;;
      m_mod_loop n' (MkInt (sign tmp) tc)
  end.

(** int.hpp:499-539: the sign is set before the two allocations of [tmp]. When [rhs] is
    [*this], its digits are still the same when they are copied. *)
Definition m_mod_assign (that : MInt) : om unit :=
  olift (alift (check_zero (msign that))) =;;
  this <= oget ;;
  d1 <= olift (alift (int_digits (forget this))) ;;
  d2 <= olift (alift (int_digits (forget that))) ;;
  if d1 <? d2 then oret tt
  else
    let size := (length (items (mvec this)) - length (items (mvec that)) + 1)%nat in
    oput (MI 1 (mvec this)) =;;
    t1 <= olift (v_new (repeat 0 size)) ;;
    t2 <= olift (v_append t1 (items (mvec that))) ;;
    m_mod_loop size (MkInt 1 (items t2)) =;;
    this' <= oget ;;
    oput (m_trim this').

(** int.hpp:542-555: the sign is set before the [push_back]. *)
Definition m_inc : om unit :=
  this <= oget ;;
  if msign this =? 0
  then oput (MI 1 (mvec this)) =;;
       v <= olift (v_push (mvec this) 1) ;;
       oput (MI 1 v)
  else if msign this =? 1 then m_abs_inc else m_abs_dec.
(** int.hpp:558-571 *)
Definition m_dec : om unit :=
  this <= oget ;;
  if msign this =? 0
  then oput (MI (-1) (mvec this)) =;;
       v <= olift (v_push (mvec this) 1) ;;
       oput (MI (-1) v)
  else if msign this =? 1 then m_abs_dec else m_abs_inc.

(** ** Binary operators, int.hpp:598-625: [return Int( *this) op= rhs;] copies, computes, and
    copies the result, to which the compound operator returned a reference. *)
Definition m_bin (op : MInt -> om unit) (x y : MInt) : am MInt :=
  c <~ m_copy x ;; r <~ local (op y) c ;; m_copy r.
Definition m_add := m_bin m_add_assign.
Definition m_sub := m_bin m_sub_assign.
Definition m_mul := m_bin m_mul_assign.
Definition m_div := m_bin m_div_assign.
Definition m_mod := m_bin m_mod_assign.

(** ** Number theory *)

(** int.hpp:637-640 *)
Fixpoint m_factorial_loop (fuel : nat) (i result : MInt) : am MInt :=
  match fuel with
  | O => afail FFuel
  | S f =>
      if is_positive (forget i)
      then r1 <~ local (m_mul_assign i) result ;;
           i1 <~ local m_abs_dec i ;;
           m_factorial_loop f i1 r1
      else aret result
  end.
(** int.hpp:628-643 *)
Definition m_factorial (fuel : nat) (x : MInt) : am MInt :=
  if msign x =? -1 then afail (FThrow NegativeFactorial)
  else one <~ m_of_int 1 ;; i <~ m_copy x ;; m_factorial_loop fuel i one.

(** int.hpp:323-329 *)
Fixpoint m_prime_loop (fuel : nat) (x i : MInt) : am bool :=
  match fuel with
  | O => afail FFuel
  | S f =>
      sq <~ m_mul i i ;;
      le <~ alift (int_le (forget sq) (forget x)) ;;
      if le then
        r <~ m_mod x i ;;
        if is_zero (forget r) then aret false
        else i1 <~ local m_abs_inc i ;; m_prime_loop f x i1
      else aret true
  end.
(** int.hpp:316-332 *)
Definition m_is_prime (fuel : nat) (x : MInt) : am bool :=
  one <~ m_of_int 1 ;;
  le <~ alift (int_le (forget x) (forget one)) ;;
  if le then aret false
  else two <~ m_of_int 2 ;; m_prime_loop fuel x two.

(** int.hpp:662-672 *)
Fixpoint m_next_prime_loop (fuel : nat) (ifuel : nat) (prime : MInt) : am MInt :=
  match fuel with
  | O => afail FFuel
  | S f =>
      p1 <~ local m_abs_inc prime ;;
      p2 <~ local m_abs_inc p1 ;;
      b <~ m_is_prime ifuel p2 ;;
      if b then aret p2 else m_next_prime_loop f ifuel p2
  end.
(** int.hpp:646-675 *)
Definition m_next_prime (fuel : nat) (x : MInt) : am MInt :=
  two <~ m_of_int 2 ;;
  lt <~ alift (int_lt (forget x) (forget two)) ;;
  if lt then m_of_int 2
  else
    c <~ m_copy x ;;
    ev <~ alift (is_even (forget c)) ;;
    start <~ (if ev then local m_abs_dec c else aret c) ;;
    m_next_prime_loop fuel fuel start.

(** int.hpp:719-723: [pre_sqrt = cur_sqrt] copies. *)
Fixpoint m_sqrt_loop (fuel : nat) (n cur pre : MInt) : am MInt :=
  match fuel with
  | O => afail FFuel
  | S f =>
      if negb (int_eqb (forget cur) (forget pre))
      then pre1 <~ local (m_assign_copy cur) pre ;;
           q <~ m_div n cur ;;
           s <~ m_add cur q ;;
           two <~ m_of_int 2 ;;
           c <~ m_div s two ;;
           m_sqrt_loop f n c pre1
      else aret cur
  end.
(** int.hpp:695-726: a vector of zeros, its copy, and one more digit *)
Definition m_sqrt (fuel : nat) (n : MInt) : am MInt :=
  if msign n =? -1 then afail (FThrow NegativeSqrt)
  else if is_zero (forget n) then m_of_int 0
  else
    four <~ m_of_int 4 ;;
    lt <~ alift (int_lt (forget n) (forget four)) ;;
    if lt then m_of_int 1
    else
      v1 <~ v_new (repeat 0 (Nat.div (length (items (mvec n))) 2)) ;;
      v2 <~ v_new (items v1) ;;
      v3 <~ v_push v2 1 ;;
      zero <~ m_of_int 0 ;;
      m_sqrt_loop fuel n (MI 1 v3) zero.

(** int.hpp:755-763 *)
Fixpoint m_pow_loop (fuel : nat) (m num n result : MInt) : am MInt :=
  match fuel with
  | O => afail FFuel
  | S f =>
      if negb (is_zero (forget n))
      then
        odd <~ alift (is_odd (forget n)) ;;
        r1 <~ (if odd
               then t <~ m_mul result num ;;
                    (if is_zero (forget m) then aret t else m_mod t m)
               else aret result) ;;
        sq <~ m_mul num num ;;
        num1 <~ (if is_zero (forget m) then aret sq else m_mod sq m) ;;
        two <~ m_of_int 2 ;;
        n1 <~ local (m_div_assign two) n ;;
        m_pow_loop f m num1 n1 r1
      else aret result
  end.
(** int.hpp:729-766 *)
Definition m_pow (fuel : nat) (base exp m : MInt) : am MInt :=
  d <~ alift (int_digits (forget base)) ;;
  one_abs <~ alift (if d =? 1 then bind (vget (items (mvec base)) 0) (fun c0 => Ok (c0 =? 1)) else Ok false) ;;
  if one_abs
  then
    odd <~ alift (if msign base =? -1 then is_odd (forget exp) else Ok false) ;;
    m_of_int (if odd then -1 else 1)
  else if is_negative (forget exp)
  then if is_zero (forget base) then afail (FThrow MathDomain) else m_of_int 0
  else
    num <~ m_copy base ;;
    n <~ m_copy exp ;;
    one <~ m_of_int 1 ;;
    m_pow_loop fuel m num n one.

(** int.hpp:783-787 *)
Fixpoint m_log_loop (fuel : nat) (value base result : MInt) : am MInt :=
  match fuel with
  | O => afail FFuel
  | S f =>
      if negb (is_zero (forget value))
      then r1 <~ local m_inc result ;;
           v1 <~ local (m_div_assign base) value ;;
           m_log_loop f v1 base r1
      else aret result
  end.
(** int.hpp:769-790 *)
Definition m_log (fuel : nat) (n base : MInt) : am MInt :=
  small <~ (if msign n <=? 0 then aret true
            else two <~ m_of_int 2 ;; alift (int_lt (forget base) (forget two))) ;;
  if small then afail (FThrow MathDomain)
  else
    ten <~ m_of_int 10 ;;
    if int_eqb (forget base) (forget ten)
    then d <~ alift (int_digits (forget n)) ;; m_of_int (d - 1)
    else
      v <~ m_div n base ;;
      m_log_loop fuel v base mzero.

(** utility.hpp:110-115 at [T = Int]: [t = b] and [a = t] copy. *)
Fixpoint m_gcd_loop (fuel : nat) (a b : MInt) : am MInt :=
  match fuel with
  | O => afail FFuel
  | S f =>
      zero <~ m_of_int 0 ;;
      if negb (int_eqb (forget b) (forget zero))
      then t <~ m_copy b ;;
           r <~ m_mod a b ;;
           a1 <~ local (m_assign_copy t) a ;;
           m_gcd_loop f a1 r
      else aret a
  end.
(** int.hpp:793-796, utility.hpp:102-118: the arguments are passed by value. *)
Definition m_gcd (fuel : nat) (a b : MInt) : am MInt :=
  a0 <~ m_copy a ;;
  b0 <~ m_copy b ;;
  a1 <~ m_abs a0 ;;
  b1 <~ m_abs b0 ;;
  m_gcd_loop fuel a1 b1.
(** int.hpp:799-807 *)
Definition m_lcm (fuel : nat) (a b : MInt) : am MInt :=
  if is_zero (forget a) || is_zero (forget b) then m_of_int 0
  else
    m <~ m_mul a b ;;
    m' <~ m_abs m ;;
    g <~ m_gcd fuel a b ;;
    m_div m' g.

(** int.hpp:854-874: [*integer.chunks_.rbegin()] of a non-zero sign without digits is undefined. *)
Definition m_print (x : MInt) : outcome (list ascii) :=
  if msign x =? 0 then Ok ["0"%char]
  else match items (mvec x) with [] => UB BadDeref | _ => Ok (int_print (forget x)) end.

(** ** Programs: the statements of IntProgModel.v, each inside its own [try]/[catch] *)

Inductive mevent : Type := ME (e : event) | MEBadAlloc.
Definition mstore : Type := var -> MInt.
Definition mset (s : mstore) (v : var) (x : MInt) : mstore := fun w => if Nat.eqb w v then x else s w.

Definition m_un (fuel : nat) (o : uop) (x : MInt) : am MInt :=
  match o with
  | UPos => m_copy x
  | UNeg => m_neg x
  | UAbs => m_abs x
  | UFactorial => m_factorial fuel x
  | UNextPrime => m_next_prime fuel x
  | USqrt => m_sqrt fuel x
  end.
Definition m_binary (fuel : nat) (o : bop) (x y : MInt) : am MInt :=
  match o with
  | BAdd => m_add x y
  | BSub => m_sub x y
  | BMul => m_mul x y
  | BDiv => m_div x y
  | BMod => m_mod x y
  | BPow => m_pow fuel x y mzero
  | BLog => m_log fuel x y
  | BGcd => m_gcd fuel x y
  | BLcm => m_lcm fuel x y
  end.
Definition m_compound (o : aop) (same : bool) (y : MInt) : om unit :=
  match o with
  | AAdd => if same then m_add_assign_self else m_add_assign y
  | ASub => m_sub_assign y
  | AMul => m_mul_assign y
  | ADiv => m_div_assign y
  | AMod => m_mod_assign y
  end.
Definition m_query (fuel : nat) (o : qop) (x : MInt) : am bool :=
  match o with
  | QPrime => m_is_prime fuel x
  | _ => alift (eval_query p fuel o (forget x))
  end.

(** What the client sees of a failure that is an exception *)
Definition seen (f : fault) : outcome mevent :=
  match f with
  | FBadAlloc => Ok MEBadAlloc
  | FThrow e => Ok (ME (EThrow e))
  | FUB u => UB u
  | FFuel => OutOfFuel
  end.

(** A member function called on variable [v] *)
Definition call_on (v : var) (m : om unit) (s : mstore) (k : nat) : outcome (mstore * nat * list mevent) :=
  match m (s v, k) with
  | (MRet _, (x, k')) => Ok (mset s v x, k', [])
  | (MFail f, (x, k')) => e <- seen f ;; Ok (mset s v x, k', [e])
  end.
(** [v = f(...)]: the result is moved into [v]. *)
Definition store_in (v : var) (m : am MInt) (s : mstore) (k : nat) : outcome (mstore * nat * list mevent) :=
  match m k with
  | (MRet x, k') => Ok (mset s v x, k', [])
  | (MFail f, k') => e <- seen f ;; Ok (s, k', [e])
  end.
Definition emit {A} (f : A -> event) (m : am A) (s : mstore) (k : nat) : outcome (mstore * nat * list mevent) :=
  match m k with
  | (MRet a, k') => Ok (s, k', [ME (f a)])
  | (MFail f, k') => e <- seen f ;; Ok (s, k', [e])
  end.

Definition mstep (fuel : nat) (c : stmt) (s : mstore) (k : nat) : outcome (mstore * nat * list mevent) :=
  match c with
  | SInt v n => store_in v (m_of_int n) s k
  | SChars v cs => store_in v (m_of_chars cs) s k
  | SCopy v w => call_on v (m_assign_copy (s w)) s k
  | SMove v w => if Nat.eqb v w then UB SelfRange else Ok (mset (mset s v (s w)) w mzero, k, [])
  | SAssign o v w => call_on v (m_compound o (Nat.eqb v w) (s w)) s k
  | SInc v => call_on v m_inc s k
  | SDec v => call_on v m_dec s k
  | SUn o v w => store_in v (m_un fuel o (s w)) s k
  | SBin o v u w => store_in v (m_binary fuel o (s u) (s w)) s k
  | SPowMod v b e m => store_in v (m_pow fuel (s b) (s e) (s m)) s k
  | SCompare o v w => emit EBool (alift (eval_cmp o (forget (s v)) (forget (s w)))) s k
  | SQuery o v => emit EBool (m_query fuel o (s v)) s k
  | SDigits v => emit ENum (alift (int_digits (forget (s v)))) s k
  | SPrint v => emit EText (alift (m_print (s v))) s k
  end.

Fixpoint mrun (fuel : nat) (prog : list stmt) (s : mstore) (k : nat) : outcome (mstore * nat * list mevent) :=
  match prog with
  | [] => Ok (s, k, [])
  | c :: prog' =>
      r <- mstep fuel c s k ;;
      r' <- mrun fuel prog' (fst (fst r)) (snd (fst r)) ;;
      Ok (fst r', snd r ++ snd r')
  end.

End Memory.
