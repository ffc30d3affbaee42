(** Properties C197..C201: small client programs. Theorems only; each is an instance of a lemma proved elsewhere and is followed
    by its assumptions and by a concrete case. The programs are in ClientModel.v with their C++ text. *)
From Coq Require Import ZArith Ascii String List Bool Lia.
From Verif Require Import Outcome ExTools IntModel IntSpec IntBase ListModel ListSpec SetModel SetSpec SetMore DequeModel DictModel DictSpec FracModel StrModel StrSpec ElemFacts ClientModel ClientSpec Client.
Import ListNotations.
Open Scope Z_scope.

(** The loop leaves exactly the words that occur, each with the number of its occurrences. *)
Theorem C197_tally : forall (K : Type) (ltk eqk : K -> K -> bool), strict_total ltk -> decides eqk -> forall ws, Z.of_nat (length ws) <= INT_MAX ->
  exists d, tally ltk ws [] = Ok d /\ listing ltk d (counts eqk ws).
Proof. exact @tally_counts. Qed.
Print Assumptions C197_tally.

(** The same for the pieces of a text. *)
Theorem C197_words : forall (ltk eqk : list ascii -> list ascii -> bool) s sep keep, strict_total ltk -> decides eqk -> Z.of_nat (length s) < INT_MAX -> sep <> [] ->
  exists ps d, pieces sep s ps /\ count_words ltk s sep keep = Ok d /\
    listing ltk d (counts eqk (if keep then ps else filter (fun x => negb (str_is_empty x)) ps)).
Proof. exact words_counted. Qed.
Print Assumptions C197_words.

Example C197_case : strict_total Z.ltb /\ tally Z.ltb [3; 1; 3; 2; 3; 1] [] = Ok [(1, 2); (2, 1); (3, 3)] /\
  map (counts Z.eqb [3; 1; 3; 2; 3; 1]) [1; 2; 3; 4] = [Some 2; Some 1; Some 3; None].
Proof. split; [exact Zltb_total|]. split; reflexivity. Qed.

Example C197_case_words : strict_total str_ltb /\ decides str_eqb /\
  count_words str_ltb (chars "to be or not to be") [" "%char] false = Ok [(chars "be", 2); (chars "not", 1); (chars "or", 1); (chars "to", 2)].
Proof. split; [exact (proj1 str_total)|]. split; [exact (proj2 str_total)|]. reflexivity. Qed.

(** list.sort().uniquify() lists what Set(list) lists. *)
Theorem C198_sort_uniquify : forall (T : Type) (lt eqb : T -> T -> bool), strict_total lt -> decides eqb -> forall l, sort_uniquify lt eqb l = (Ok tt, set_of lt l).
Proof. exact @sort_uniquify_set. Qed.
Print Assumptions C198_sort_uniquify.

(** uniquify alone keeps the same elements and as many. *)
Theorem C198_uniquify_size : forall (T : Type) (lt eqb : T -> T -> bool), strict_total lt -> decides eqb -> forall l l', list_uniquify eqb l = (Ok tt, l') ->
  length l' = length (set_of lt l) /\ forall x, In x l' <-> In x (set_of lt l).
Proof. exact @uniquify_set_size. Qed.
Print Assumptions C198_uniquify_size.

Example C198_case : sort_uniquify Z.ltb Z.eqb [3; 1; 3; 2; 1] = (Ok tt, [1; 2; 3]) /\ set_of Z.ltb [3; 1; 3; 2; 1] = [1; 2; 3] /\ decides Z.eqb.
Proof. split; [reflexivity|]. split; [reflexivity|]. exact Z.eqb_eq. Qed.

(** The sum of 1290 terms is undefined although every term and every partial sum is small. *)
Theorem C199_telescope_refuted : telescope 1290 1 (Frac 0 1) = UB SignedOverflow.
Proof. exact (proj2 (telescope_exact 1290) eq_refl). Qed.
Print Assumptions C199_telescope_refuted.

(** The sum is n/(n+1) exactly up to 1289 terms. *)
Theorem C199_telescope : forall n, (Z.of_nat n <= 1289 -> telescope n 1 (Frac 0 1) = Ok (Frac (Z.of_nat n) (Z.of_nat n + 1))) /\
  (1289 < Z.of_nat n -> telescope n 1 (Frac 0 1) = UB SignedOverflow).
Proof. exact telescope_exact. Qed.
Print Assumptions C199_telescope.

Example C199_case : telescope 3 1 (Frac 0 1) = Ok (Frac 3 4) /\ Z.of_nat 3 <= 1289.
Proof. split; [reflexivity|cbn; lia]. Qed.

(** The one who stays sits where the recurrence says. *)
Theorem C200_circle : forall (T : Type) k n (q : list T), length q = S n -> Z.of_nat (length q) <= INT_MAX ->
  exists x, nth_error q (Z.to_nat (seat k (S n))) = Some x /\ forall fuel, (n <= fuel)%nat -> josephus fuel k q = Ok [x].
Proof. exact josephus_seat. Qed.
Print Assumptions C200_circle.

(** For every second one the seat has a closed form. *)
Theorem C200_every_second : forall n j, 2 ^ j <= Z.of_nat n < 2 * 2 ^ j -> 0 <= j -> seat 2 n = 2 * (Z.of_nat n - 2 ^ j).
Proof. exact seat_two. Qed.
Print Assumptions C200_every_second.

Example C200_case : josephus 10 3 [1; 2; 3; 4; 5; 6; 7; 8; 9; 10] = Ok [4] /\ seat 3 10 = 3 /\ seat 2 10 = 2 * (10 - 8).
Proof. repeat split; reflexivity. Qed.

(** The loop gives the digits of n in base b. *)
Theorem C201_digits : forall b c n a fuel, repr b c -> 2 <= c -> repr n a -> 0 <= a < 2 ^ Z.of_nat fuel ->
  exists ds zs, digits_of Benign fuel n b [] = Ok ds /\ Forall2 repr ds zs /\ Forall (fun z => 0 <= z < c) zs /\ in_base c zs = a /\ last zs 1 <> 0.
Proof. exact digits_ok. Qed.
Print Assumptions C201_digits.

(** Only one list of digits is right. *)
Theorem C201_unique : forall c zs ys, 2 <= c -> Forall (fun z => 0 <= z < c) zs -> Forall (fun z => 0 <= z < c) ys -> last zs 1 <> 0 -> last ys 1 <> 0 ->
  in_base c zs = in_base c ys -> zs = ys.
Proof. exact in_base_unique. Qed.
Print Assumptions C201_unique.

(** In base 10 they are the digits of the object. *)
Theorem C201_ten : forall b n a fuel, repr b 10 -> repr n a -> 0 <= a < 2 ^ Z.of_nat fuel ->
  exists ds, digits_of Benign fuel n b [] = Ok ds /\ Forall2 repr ds (chunks n).
Proof. exact digits_ten. Qed.
Print Assumptions C201_ten.

(** In base 1 the loop never ends. *)
Theorem C201_one : forall b n a fuel acc, repr b 1 -> repr n a -> 0 < a -> digits_of Benign fuel n b acc = OutOfFuel.
Proof. exact digits_one. Qed.
Print Assumptions C201_one.

(** In base 0 it throws. *)
Theorem C201_zero : forall p b n a fuel acc, repr b 0 -> repr n a -> a <> 0 -> digits_of p (S fuel) n b acc = Throw DivideByZero.
Proof. exact digits_zero. Qed.
Print Assumptions C201_zero.

Example C201_case : repr (MkInt 1 [3; 1]) 13 /\ repr (MkInt 1 [2]) 2 /\ 0 <= 13 < 2 ^ Z.of_nat 4 /\
  digits_of Benign 4 (MkInt 1 [3; 1]) (MkInt 1 [2]) [] = Ok [MkInt 1 [1]; MkInt 0 []; MkInt 1 [1]; MkInt 1 [1]] /\ in_base 2 [1; 0; 1; 1] = 13.
Proof.
  split; [apply repr_check; reflexivity|]. split; [apply repr_check; reflexivity|]. split; [cbn; lia|]. split; vm_compute; reflexivity.
Qed.
