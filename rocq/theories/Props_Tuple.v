(** Properties C98 and C99: tuples. Theorems only; each is an instance of a lemma proved
    elsewhere and is followed by its assumptions and by a concrete case. *)
From Coq Require Import String Ascii ZArith List Bool Lia.
From Verif Require Import Outcome Show TupleModel TupleSpec TupleFacts ExTools.
Import ListNotations.
Open Scope Z_scope.

Theorem C98_equality : forall U (el : U -> Type) same (eqv : forall u, el u -> el u -> bool) (l m : list (arg el)),
  tuple_eqb same eqv (make_tuple l) (make_tuple m) = true <-> Forall2 (same_value eqv) l m.
Proof. exact eqb_make. Qed.
Print Assumptions C98_equality.

Theorem C98_inequality : forall U (el : U -> Type) same (eqv : forall u, el u -> el u -> bool) us (t : tuple el us) vs (s : tuple el vs),
  tuple_neqb same eqv t s = negb (tuple_eqb same eqv t s).
Proof. exact neqb_make. Qed.
Print Assumptions C98_inequality.

(** When the elements compare equal exactly when they are equal. *)
Theorem C98_exact : forall U (el : U -> Type) same (eqv : forall u, el u -> el u -> bool),
  (forall u a b, eqv u a b = true <-> a = b) -> forall l m : list (arg el),
  tuple_eqb same eqv (make_tuple l) (make_tuple m) = true <-> l = m.
Proof. exact eqb_exact. Qed.
Print Assumptions C98_exact.

Theorem C98_symmetric : forall U (el : U -> Type) same (eqv : forall u, el u -> el u -> bool),
  (forall u a b, eqv u a b = eqv u b a) -> forall l m : list (arg el),
  tuple_eqb same eqv (make_tuple l) (make_tuple m) = tuple_eqb same eqv (make_tuple m) (make_tuple l).
Proof. exact eqb_sym. Qed.
Print Assumptions C98_symmetric.

Theorem C99_get : forall U (el : U -> Type) (l : list (arg el)) i, tuple_get (make_tuple l) i = nth_error l i.
Proof. exact get_make. Qed.
Print Assumptions C99_get.

Theorem C99_size : forall U (el : U -> Type) (l : list (arg el)), tuple_size (make_tuple l) = Z.of_nat (length l).
Proof. exact size_make. Qed.
Print Assumptions C99_size.

Theorem C99_rest : forall U (el : U -> Type) (l : list (arg el)),
  tuple_rest (make_tuple l) = match l with [] => None | _ :: l' => Some (existT _ _ (make_tuple l')) end.
Proof. exact rest_make. Qed.
Print Assumptions C99_rest.

Theorem C99_print : forall U (el : U -> Type) (show : forall u, el u -> list ascii) (l : list (arg el)),
  tuple_print show (make_tuple l) = shown (map (text_of show) l).
Proof. exact print_make. Qed.
Print Assumptions C99_print.

Section Case.
  Let el (u : bool) : Type := if u then Z else list ascii.
  Let eqv (u : bool) : el u -> el u -> bool :=
    match u with true => Z.eqb | false => fun a b => if list_eq_dec ascii_dec a b then true else false end.
  Let show (u : bool) : el u -> list ascii := match u with true => show_int | false => fun s => s end.
  Let num (z : Z) : arg el := existT el true z.
  Let str (s : string) : arg el := existT el false (chars s).
  Example C98_case : tuple_eqb Bool.bool_dec eqv (make_tuple [num 1; str "a"]) (make_tuple [num 1; str "a"]) = true /\
    tuple_eqb Bool.bool_dec eqv (make_tuple [num 1; str "a"]) (make_tuple [num 1; str "b"]) = false /\
    tuple_eqb Bool.bool_dec eqv (make_tuple [num 1; str "1"]) (make_tuple [num 1; num 1]) = false /\
    tuple_eqb Bool.bool_dec eqv (make_tuple [num 1; str "a"]) (make_tuple [num 1]) = false /\
    tuple_eqb Bool.bool_dec eqv (make_tuple []) (make_tuple [num 1]) = false.
  Proof. vm_compute. repeat split. Qed.
  Example C99_case : tuple_get (make_tuple [num 1; str "a"]) 1 = Some (str "a") /\ tuple_get (make_tuple [num 1]) 1 = None /\
    tuple_print show (make_tuple []) = chars "()" /\ tuple_print show (make_tuple [num 7]) = chars "(7,)" /\
    tuple_print show (make_tuple [num 7; str "x"; num (-2)]) = chars "(7, x, -2)" /\ tuple_size (make_tuple [num 7; str "x"]) = 2.
  Proof. vm_compute. repeat split. Qed.
End Case.
