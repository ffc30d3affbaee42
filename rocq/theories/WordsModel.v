(** Client programs over the words of a text: turning their order around, and adding up the numbers; and one that
    adds Ints. They are not part of the repository; they call the models of the members they use. *)
From Coq Require Import ZArith List Bool Ascii.
From Verif Require Import Outcome IntModel ListModel StrModel.
Import ListNotations.
Open Scope Z_scope.

(** [sep.join(text.split(sep, keep).reverse())]; str.hpp:662-685, list.hpp:257-262, str.hpp:693-706 *)
Definition reverse_words (sep : str) (keep : bool) (text : str) : outcome str :=
  ws <- str_split text sep keep ;;
  match list_reverse ws with
  | (Ok _, ws') => str_join sep ws'
  | (Throw e, _) => Throw e
  | (UB u, _) => UB u
  | (OutOfFuel, _) => OutOfFuel
  end.

(** [for (auto&& word : words) sum += word.to_integer();] str.hpp:401-452, int.hpp:339-374 *)
Fixpoint sum_words (p : policy) (words : list str) (sum : Int) : outcome Int :=
  match words with
  | [] => Ok sum
  | w :: words' => x <- str_to_integer p w 10 ;; sum' <- int_add_assign p sum x ;; sum_words p words' sum'
  end.
(** [Int sum; for (auto&& word : text.split(sep)) sum += word.to_integer();] str.hpp:662-685; int.hpp:161-170: [Int()] is zero. *)
Definition sum_text (p : policy) (sep text : str) : outcome Int :=
  ws <- str_split text sep false ;; sum_words p ws (MkInt 0 []).

(** [Int a = 0, b = 1; for (; n > 0; --n) { Int t = a + b; a = b; b = t; }]: the [a] at the end; int.hpp:161-170, 598-601, 206 *)
Fixpoint fibonacci (p : policy) (n : nat) (a b : Int) : outcome Int :=
  match n with
  | O => Ok a
  | S n' => t <- int_add p a b ;; fibonacci p n' b t
  end.
