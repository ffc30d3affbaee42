(** What the types of Python do to which the types of the library correspond (readme.md, "Provided classes").
    Nothing here refers to the model of the library's functions. *)
From Coq Require Import String Ascii ZArith QArith List Bool.
From Verif Require Import Outcome ListSpec StrSpec.
Import ListNotations.
Open Scope Z_scope.

(** ** list and str *)

(** Negative positions count from the end. *)
Definition py_from_end (n i : Z) : Z := if i <? 0 then n + i else i.
(** l[i]; [None] is IndexError. *)
Definition py_item {T} (l : list T) (i : Z) : option T :=
  let k := py_from_end (Z.of_nat (length l)) i in if k <? 0 then None else nth_error l (Z.to_nat k).
(** A bound of l[start:stop:step], moved into the list. *)
Definition py_bound (n step i : Z) : Z :=
  let k := py_from_end n i in
  if 0 <? step then Z.max 0 (Z.min n k) else Z.max (-1) (Z.min (n - 1) k).
(** range(a, b, step) *)
Definition py_range (a b step : Z) : list Z :=
  map (fun k => a + Z.of_nat k * step)
    (seq 0 (Z.to_nat (if 0 <? step then (b - a + step - 1) / step else (a - b - step - 1) / - step))).
(** l[start:stop:step]; [None] is the ValueError for step 0. *)
Definition py_slice {T} (l : list T) (start stop step : Z) : option (list T) :=
  if step =? 0 then None
  else let n := Z.of_nat (length l) in
    Some (flat_map (fun i => match nth_error l (Z.to_nat i) with Some x => [x] | None => [] end)
            (py_range (py_bound n step start) (py_bound n step stop) step)).
(** l.insert(i, x) *)
Definition py_insert {T} (l : list T) (i : Z) (x : T) : list T :=
  let k := Z.to_nat (py_bound (Z.of_nat (length l)) 1 i) in firstn k l ++ x :: skipn k l.
(** l.pop(i) *)
Definition py_pop {T} (l : list T) (i : Z) : option (T * list T) :=
  let k := py_from_end (Z.of_nat (length l)) i in
  match py_item l i with
  | Some x => Some (x, firstn (Z.to_nat k) l ++ skipn (S (Z.to_nat k)) l)
  | None => None
  end.
(** del l[a:b] *)
Definition py_del {T} (l : list T) (a b : Z) : list T :=
  let n := Z.of_nat (length l) in
  let a' := py_bound n 1 a in
  firstn (Z.to_nat a') l ++ skipn (Z.to_nat (Z.max a' (py_bound n 1 b))) l.
(** l * n *)
Definition py_times {T} (l : list T) (n : Z) : list T := concat (repeat l (Z.to_nat n)).
(** l.index(x, start, stop) is [r], or raises ValueError if [r] is -1. *)
Definition py_index {T} (eqb : T -> T -> bool) (l : list T) (x : T) (start stop r : Z) : Prop :=
  let n := Z.of_nat (length l) in first_at eqb l x (Z.max 0 (py_from_end n start)) (py_bound n 1 stop) r.
(** s.find(p, start, stop) is [r]. *)
Definition py_find (s p : text) (start stop r : Z) : Prop :=
  let n := size_of s in first_occurrence s p (Z.max 0 (py_from_end n start)) (py_bound n 1 stop) r.

(** ** Whitespace *)

(** The characters below 128 for which str.isspace() holds. *)
Definition py_space (c : ascii) : bool := ((9 <=? byte c) && (byte c <=? 13)) || ((28 <=? byte c) && (byte c <=? 32)).
(** The maximal runs of characters that are not [f], in order. *)
Fixpoint runs (f : ascii -> bool) (current s : text) : list text :=
  match s with
  | [] => match current with [] => [] | _ => [current] end
  | c :: s' => if f c then match current with [] => runs f [] s' | _ => current :: runs f [] s' end
               else runs f (current ++ [c]) s'
  end.
(** s.split() *)
Definition py_split (s : text) : list text := runs py_space [] s.
(** s.strip() *)
Definition py_strip (s r : text) : Prop := trimmed (fun c => py_space c = true) s r.

(** ** int *)

(** Digits, possibly with single underscores between them. *)
Inductive py_digits (base : Z) : text -> list Z -> Prop :=
| digits_one : forall c d, digit_val base c d -> py_digits base [c] [d]
| digits_more : forall c d t ds, digit_val base c d -> py_digits base t ds -> py_digits base (c :: t) (d :: ds)
| digits_under : forall c d t ds, digit_val base c d -> py_digits base t ds -> py_digits base (c :: "_"%char :: t) (d :: ds).
(** What may stand before the digits: nothing, or the prefix of the base, possibly with an underscore. *)
Inductive py_prefix (base : Z) : text -> Prop :=
| prefix_none : py_prefix base []
| prefix_some : forall x p, (base = 2 /\ (x = "b" \/ x = "B") \/ base = 8 /\ (x = "o" \/ x = "O") \/ base = 16 /\ (x = "x" \/ x = "X"))%char ->
    p = ["0"%char; x] \/ p = ["0"; x; "_"]%char -> py_prefix base p.
(** The characters below 128 that int() and float() take off at both ends; of the others of [py_space] they take none. *)
Definition py_trim (c : ascii) : bool := ((9 <=? byte c) && (byte c <=? 13)) || (byte c =? 32).
(** int(s, base) is [z]. *)
Definition py_int (base : Z) (s : text) (z : Z) : Prop :=
  exists b1 sg pre t b2 negative ds, s = b1 ++ sg ++ pre ++ t ++ b2 /\
    Forall (fun c => py_trim c = true) b1 /\ Forall (fun c => py_trim c = true) b2 /\
    sign_text sg negative /\ py_prefix base pre /\ py_digits base t ds /\
    z = (if negative then - positional base ds else positional base ds).

(** a // b is [q] and a % b is [r]: rounding towards minus infinity. *)
Definition py_divmod (a b q r : Z) : Prop := a = q * b + r /\ (0 <= r < b \/ b < r <= 0).

(** ** Fraction *)

(** a % b *)
Definition py_frac_mod (a b r : Q) : Prop :=
  exists t : Z, (a == inject_Z t * b + r)%Q /\ ((0 <= r /\ r < b) \/ (b < r /\ r <= 0))%Q.

(** ** deque *)

(** d.extendleft(w): one element after the other is put in front. *)
Definition py_extendleft {T} (d w : list T) : list T := fold_left (fun d x => x :: d) w d.

(** ** dict *)

(** d[k] = x: an entry keeps its place, a new one comes last. *)
Fixpoint py_put {K V} (eqk : K -> K -> bool) (d : list (K * V)) (k : K) (x : V) : list (K * V) :=
  match d with
  | [] => [(k, x)]
  | e :: d' => if eqk (fst e) k then (fst e, x) :: d' else e :: py_put eqk d' k x
  end.
(** d.update(xs), the entries in the order in which they are iterated *)
Definition py_update {K V} (eqk : K -> K -> bool) (d xs : list (K * V)) : list (K * V) :=
  fold_left (fun d e => py_put eqk d (fst e) (snd e)) xs d.
(** {k: x, ...} *)
Definition py_dict {K V} (eqk : K -> K -> bool) (xs : list (K * V)) : list (K * V) := py_update eqk [] xs.
(** [x] comes with the last occurrence of [k]. *)
Definition last_value {K V} (xs : list (K * V)) (k : K) (x : V) : Prop :=
  exists a b, xs = a ++ (k, x) :: b /\ forall y, ~ In (k, y) b.
