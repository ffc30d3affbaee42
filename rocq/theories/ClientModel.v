(** Small client programs written against the API of the library. They are not part of the repository; each calls the models of
    the members it uses, and its C++ text is given above it. *)
From Coq Require Import ZArith List Bool.
From Verif Require Import Outcome IntModel ListModel DequeModel SetModel DictModel FracModel StrModel.
Import ListNotations.
Open Scope Z_scope.

(** [for (auto&& w : ws) { dict.add(w, 0); dict[w] = dict[w] + 1; }] on a [Dict<K, int>]; dict.hpp:95-110, 193-198 *)
Fixpoint tally {K} (ltk : K -> K -> bool) (ws : list K) (d : list (K * Z)) : outcome (list (K * Z)) :=
  match ws with
  | [] => Ok d
  | w :: ws' =>
      match dict_add ltk w 0 d with
      | (Ok _, d1) =>
          n <- dict_at ltk d1 w ;; n' <- chk32 (n + 1) ;;
          match dict_set ltk w n' d1 with
          | (Ok _, d2) => tally ltk ws' d2
          | (Throw e, _) => Throw e
          | (UB u, _) => UB u
          | (OutOfFuel, _) => OutOfFuel
          end
      | (Throw e, _) => Throw e
      | (UB u, _) => UB u
      | (OutOfFuel, _) => OutOfFuel
      end
  end.

(** [Dict<Str, int> dict; for (auto&& w : text.split(sep, keep)) ...] as above; str.hpp:662-685 *)
Definition count_words (ltk : str -> str -> bool) (text sep : str) (keep : bool) : outcome (list (str * Z)) :=
  ws <- str_split text sep keep ;; tally ltk ws [].

(** [list.sort(); list.uniquify();] list.hpp:264-289 *)
Definition sort_uniquify {T} (lt eqb : T -> T -> bool) : M (list T) unit := fun v =>
  match list_sort lt v with
  | (Ok _, v1) => list_uniquify eqb v1
  | (Throw e, v1) => (Throw e, v1)
  | (UB u, v1) => (UB u, v1)
  | (OutOfFuel, v1) => (OutOfFuel, v1)
  end.

(** [for (; n > 0; n--, k++) sum += Fraction(1, k * (k + 1));] fraction.hpp:30-48, 126-129, 190-193 *)
Fixpoint telescope (n : nat) (k : Z) (sum : Fraction) : outcome Fraction :=
  match n with
  | O => Ok sum
  | S n' =>
      k1 <- chk32 (k + 1) ;; d <- chk32 (k * k1) ;; t <- frac_make 1 d ;; sum' <- frac_add sum t ;;
      telescope n' k1 sum'
  end.

(** [while (q.size() > 1) { q <<= k; q.pop_back(); }]: every k-th of a circle leaves; deque.hpp:170-177, 221-238 *)
Fixpoint josephus {T} (fuel : nat) (k : Z) (q : list T) : outcome (list T) :=
  if size q <=? 1 then Ok q
  else match fuel with
  | O => OutOfFuel
  | S f =>
      match deq_shl k q with
      | (Ok _, q1) => match deq_pop_back q1 with
                      | (Ok _, q2) => josephus f k q2
                      | (Throw e, _) => Throw e
                      | (UB u, _) => UB u
                      | (OutOfFuel, _) => OutOfFuel
                      end
      | (Throw e, _) => Throw e
      | (UB u, _) => UB u
      | (OutOfFuel, _) => OutOfFuel
      end
  end.

(** [while (!n.is_zero()) { digits.push_back(n % b); n = n / b; }] on a std::vector<Int>; int.hpp:616-625 *)
Fixpoint digits_of (p : policy) (fuel : nat) (n b : Int) (digits : list Int) : outcome (list Int) :=
  if is_zero n then Ok digits
  else match fuel with
  | O => OutOfFuel
  | S f => r <- int_mod p n b ;; q <- int_div p n b ;; digits_of p f q b (digits ++ [r])
  end.
