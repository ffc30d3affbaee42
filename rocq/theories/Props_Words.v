(** Properties C284, C285 and C286: turning the words of a text around, adding up its numbers, and the numbers of Fibonacci.
    Theorems only. *)
From Coq Require Import String Ascii ZArith List Bool Lia.
From Verif Require Import Outcome IntModel IntSpec ListModel StrModel StrSpec Show WordsModel Words WordSum.
Import ListNotations.
Open Scope Z_scope.

(** The pieces between separators come in the other order, without the empty ones unless they are kept. *)
Theorem C284_words : forall c keep s, len s < INT_MAX -> exists ps, pieces [c] s ps /\
  reverse_words [c] keep s = Ok (glue [c] (rev (if keep then ps else filter (fun x => match x with [] => false | _ => true end) ps))).
Proof. exact words_reversed. Qed.
Print Assumptions C284_words.

(** Keeping empty pieces, doing it twice gives the text back; the length never changes. *)
Theorem C284_twice : forall c s, len s < INT_MAX -> exists t, reverse_words [c] true s = Ok t /\ reverse_words [c] true t = Ok s /\ length t = length s.
Proof. exact twice_kept. Qed.
Print Assumptions C284_twice.

(** Otherwise doing it twice gives the words of the text with single separators. *)
Theorem C284_twice_words : forall c s, len s < INT_MAX -> exists w t, str_split s [c] false = Ok w /\ reverse_words [c] false s = Ok t /\
  str_split t [c] false = Ok (rev w) /\ reverse_words [c] false t = Ok (glue [c] w) /\ len t <= len s.
Proof. exact twice_words. Qed.
Print Assumptions C284_twice_words.

(** With separators of two characters doing it twice need not give the text back. *)
Theorem C284_longer : exists sep s t u, (length sep = 2)%nat /\ reverse_words sep true s = Ok t /\ reverse_words sep true t = Ok u /\ u <> s.
Proof. exact twice_longer. Qed.
Print Assumptions C284_longer.

(** The empty separator throws. *)
Theorem C284_empty : forall keep s, reverse_words [] keep s = Throw EmptySeparator.
Proof. exact no_separator. Qed.
Print Assumptions C284_empty.

Example C284_case : len (list_ascii_of_string " one  two three") < INT_MAX /\
  reverse_words [" "%char] false (list_ascii_of_string " one  two three") = Ok (list_ascii_of_string "three two one") /\
  reverse_words [" "%char] true (list_ascii_of_string " one  two three") = Ok (list_ascii_of_string "three two  one ").
Proof. repeat split; vm_compute; reflexivity. Qed.

(** The sum of the words, if all are decimal literals; if one is not, the exception of to_integer. *)
Theorem C285_words : forall c s, len s < INT_MAX -> exists ps, pieces [c] s ps /\
  (forall p zs, Forall2 (int_literal 10) (filter (fun x => match x with [] => false | _ => true end) ps) zs ->
     p = Benign \/ Forall (fun z => 0 <= z) zs -> returns (sum_text p [c] s) (fold_right Z.add 0 zs)) /\
  ((exists w, In w (filter (fun x => match x with [] => false | _ => true end) ps) /\ forall z, ~ int_literal 10 w z) ->
     sum_text Benign [c] s = Throw BadIntegerLiteral).
Proof. exact sum_of_words. Qed.
Print Assumptions C285_words.

(** The sum of any integers that are written with a separator between them. *)
Theorem C285_written : forall p c zs, digit_of c = None -> c <> "-"%char -> len (glue [c] (map show_int zs)) < INT_MAX ->
  p = Benign \/ Forall (fun z => 0 <= z) zs -> returns (sum_text p [c] (glue [c] (map show_int zs))) (fold_right Z.add 0 zs).
Proof. exact sum_of_written. Qed.
Print Assumptions C285_written.

Example C285_case : digit_of ","%char = None /\ len (glue [","%char] (map show_int [12; -7; 0; 105])) < INT_MAX /\
  glue [","%char] (map show_int [12; -7; 0; 105]) = list_ascii_of_string "12,-7,0,105" /\
  sum_text Benign [","%char] (list_ascii_of_string "12,-7,0,105") = Ok (MkInt 1 [0; 1; 1]) /\
  sum_text Benign [","%char] (list_ascii_of_string ", 12 ,,+3") = Ok (MkInt 1 [5; 1]) /\
  sum_text Benign [","%char] (list_ascii_of_string "12,x") = Throw BadIntegerLiteral /\
  sum_text Strict [","%char] (list_ascii_of_string "1,-1") = UB OutOfBounds.
Proof. repeat split; vm_compute; reflexivity. Qed.

(** For any sequence with 0, 1 and the recurrence of Fibonacci, under either policy. *)
Theorem C286_fibonacci : forall f, f 0%nat = 0 -> f 1%nat = 1 -> (forall n, f (S (S n)) = f n + f (S n)) ->
  forall p n a b, int_of_int 0 = Ok a -> int_of_int 1 = Ok b -> returns (fibonacci p n a b) (f n).
Proof. exact fibonacci_exact. Qed.
Print Assumptions C286_fibonacci.

Example C286_case : let f := (fix g (n : nat) := match n with O => (0, 1) | S n' => let '(a, b) := g n' in (b, a + b) end) in
  fst (f 0%nat) = 0 /\ fst (f 1%nat) = 1 /\ (forall n, fst (f (S (S n))) = fst (f n) + fst (f (S n))) /\ fst (f 10%nat) = 55 /\
  int_of_int 0 = Ok (MkInt 0 []) /\ int_of_int 1 = Ok (MkInt 1 [1]) /\
  fibonacci Strict 10 (MkInt 0 []) (MkInt 1 [1]) = Ok (MkInt 1 [5; 5]).
Proof.
  split; [reflexivity|]. split; [reflexivity|]. split; [|split; [vm_compute; reflexivity|split; [reflexivity|split; [reflexivity|vm_compute; reflexivity]]]].
  intros n. cbn. destruct ((fix g (n : nat) := match n with O => (0, 1) | S n' => let '(a, b) := g n' in (b, a + b) end) n) as (a, b). reflexivity.
Qed.
