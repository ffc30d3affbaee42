(** Printed text and Python's: C275. *)
From Coq Require Import String Ascii ZArith List Bool Lia.
From Verif Require Import Show IntModel IntSpec FracModel FracSpec ListModel DequeModel SetModel DictModel StrModel TupleModel PrintSpec PyPrintSpec PyPrint ExTools.
Import ListNotations.
Open Scope Z_scope.

(** Strings are printed in double quotes, deques in angle brackets, an empty set as an empty dict, a fraction in a list without its name. *)
Theorem C275_refuted : text TStr (chars "a") = chars """a""" /\ py_str TStr (chars "a") = chars "a" /\
  text (TList TStr) [chars "a"] = chars "[""a""]" /\ py_str (TList TStr) [chars "a"] = chars "['a']" /\
  text (TDeque TMachine) [1; 2] = chars "<1, 2>" /\ py_str (TDeque TMachine) [1; 2] = chars "deque([1, 2])" /\
  text (TSet TMachine) [] = chars "{}" /\ py_str (TSet TMachine) [] = chars "set()" /\
  text (TList TFraction) [Frac 1 2] = chars "[1/2]" /\ py_str (TList TFraction) [Frac 1 2] = chars "[Fraction(1, 2)]".
Proof. exact print_python_refuted. Qed.
Print Assumptions C275_refuted.

(** What is printed is what Python prints exactly for the values that are alike. *)
Theorem C275_exact : forall t x, held t x ->
  (text t x = py_str t x <-> match t with TFraction => True | TStr => False | _ => alike t x end).
Proof. exact str_exact. Qed.
Print Assumptions C275_exact.

(** And the repr exactly for the values that are alike. *)
Theorem C275_repr : forall t x, held t x -> (text t x = py_repr t x <-> alike t x).
Proof. exact repr_exact. Qed.
Print Assumptions C275_repr.

(** Tuples. *)
Theorem C275_tuples : forall us (t : tuple thing us), each held t -> (tuple_print text t = py_tuple (py_items t) <-> each alike t).
Proof. exact tuple_exact. Qed.
Print Assumptions C275_tuples.

Example C275_example : held (TDict TInt (TList (TSet TMachine))) [(MkInt 1 [1], [[1; 2]; [3]])] /\
  alike (TDict TInt (TList (TSet TMachine))) [(MkInt 1 [1], [[1; 2]; [3]])] /\
  text (TDict TInt (TList (TSet TMachine))) [(MkInt 1 [1], [[1; 2]; [3]])] = chars "{1: [{1, 2}, {3}]}" /\
  alike TStr (chars "it's") /\ text TStr (chars "it's") = chars """it's""" /\ py_repr TStr (chars "it's") = chars """it's""" /\
  py_repr TStr ("\"%char :: "010"%char :: "001"%char :: chars "'""") = chars "'\\\n\x01\'""'" /\
  tuple_print text (TCons (u := TMachine) 7 TNil) = chars "(7,)" /\ py_tuple (py_items (TCons (u := TMachine) 7 TNil)) = chars "(7,)".
Proof.
  split. { constructor; [|constructor]. cbn. split; [repeat constructor; try discriminate; auto; lia|repeat constructor]. }
  split. { constructor; [|constructor]. cbn. split; [exact I|]. repeat constructor; discriminate. }
  split; [vm_compute; reflexivity|].
  split. { split; [cbn; auto|]. split; [cbn; intuition discriminate|]. repeat constructor; try discriminate; vm_compute; lia. }
  vm_compute. auto 8.
Qed.
