(** Properties C144-C145: what holds across the types. Theorems only; each is an instance of a
    lemma proved elsewhere and is followed by its assumptions and by a concrete case. *)
From Coq Require Import String Ascii ZArith List Bool Lia.
From Verif Require Import Outcome Show IntModel IntSpec IntProgModel FracModel FracProgModel StreamModel ListModel ListProgModel DequeModel SetModel DictModel
  FloatModel ComplexModel StrModel StrSpec ThrowFacts LiteralFacts ExTools.
Import ListNotations.
Open Scope Z_scope.

(** Any statement of a client program, on any variables: if it throws, every object is as before. *)
Theorem C144_list : forall (T : Type) (eqb lt : T -> T -> bool) (show : T -> list ascii) (d : T) c s s' ev e,
  lstep eqb lt show d c s = Ok (s', ev) -> In (LThrow e) ev -> forall w, s' w = s w.
Proof. exact @list_throw. Qed.
Print Assumptions C144_list.

Theorem C144_deque : forall (T : Type) (eqb : T -> T -> bool) (show : T -> list ascii) c s s' ev e,
  dstep eqb show c s = Ok (s', ev) -> In (DThrow e) ev -> forall w, s' w = s w.
Proof. exact @deque_throw. Qed.
Print Assumptions C144_deque.

Theorem C144_set : forall (T : Type) (lt eqb : T -> T -> bool) (show : T -> list ascii) c s s' ev e,
  tstep lt eqb show c s = Ok (s', ev) -> In (TThrow e) ev -> forall w, s' w = s w.
Proof. exact @set_throw. Qed.
Print Assumptions C144_set.

Theorem C144_dict : forall (K V : Type) (ltk eqk : K -> K -> bool) (ltv eqv : V -> V -> bool) (showk : K -> list ascii) (showv : V -> list ascii) c s s' ev e,
  mstep ltk eqk ltv eqv showk showv c s = Ok (s', ev) -> In (MThrow e) ev -> forall w, s' w = s w.
Proof. exact @dict_throw. Qed.
Print Assumptions C144_dict.

Theorem C144_int : forall p fuel c s s' ev e, step p fuel c s = Ok (s', ev) -> In (EThrow e) ev -> forall w, s' w = s w.
Proof. exact int_throw. Qed.
Print Assumptions C144_int.

Theorem C144_fraction : forall fuel c s s' ev e, fstep fuel c s = Ok (s', ev) -> In (EThrow e) ev -> forall w, s' w = s w.
Proof. exact fraction_throw. Qed.
Print Assumptions C144_fraction.

Theorem C144_complex : forall op a b e a', cx_assign op a b = (Throw e, a') -> a' = a.
Proof. exact cx_assign_keeps. Qed.
Print Assumptions C144_complex.

(** Extraction consumes input, and the target keeps its value. *)
Theorem C144_read_int : forall s x e s' x', int_extract s x = (Throw e, (s', x')) -> x' = x.
Proof. exact int_extract_keeps. Qed.
Print Assumptions C144_read_int.

Theorem C144_read_fraction : forall fuel s f e s' f', frac_extract fuel s f = (Throw e, (s', f')) -> f' = f.
Proof. exact frac_extract_keeps. Qed.
Print Assumptions C144_read_fraction.

Theorem C144_read_complex : forall strtod fuel s z e s' z', cx_extract strtod fuel s z = (Throw e, (s', z')) -> z' = z.
Proof. exact cx_extract_keeps. Qed.
Print Assumptions C144_read_complex.

Example C144_case :
  (exists s, lstep Z.eqb Z.ltb show_int 0 (LInsert 1%nat 7 5) (fun _ => [1; 2]) = Ok (s, [LThrow IndexOutOfRange])) /\
  (exists s, dstep Z.eqb show_int (DPopBack 0%nat) (fun _ => []) = Ok (s, [DThrow ContainerEmpty])) /\
  (exists s, tstep Z.ltb Z.eqb show_int (TPop 0%nat) (fun _ => []) = Ok (s, [TThrow ContainerEmpty])) /\
  (exists s, mstep Z.ltb Z.eqb Z.ltb Z.eqb show_int show_int (MGet 0%nat 3) (fun _ => [(1, 2)]) = Ok (s, [MThrow KeyNotFound])) /\
  (exists s, step Strict 9 (SAssign ADiv 0%nat 1%nat) (fun _ => MkInt 0 []) = Ok (s, [EThrow DivideByZero])) /\
  (exists s, fstep 9 (FAssign ADiv 0%nat 1%nat) (fun _ => Frac 0 1) = Ok (s, [EThrow DivideByZero])) /\
  fst (cx_assign cx_div cx_zero cx_zero) = Throw DivideByZero /\
  (exists s, int_extract (IStream (chars "12x 3") false false) (MkInt 1 [7]) = (Throw WrongIntegerLiteral, (s, MkInt 1 [7]))) /\
  (exists s, frac_extract 9 (IStream (chars "1/0") false false) (Frac 1 2) = (Throw DivideByZero, (s, Frac 1 2))).
Proof. repeat split; try (eexists; reflexivity); reflexivity. Qed.

(** A text without the blanks that Str skips: both constructions accept it, with the same value, or both throw. *)
Theorem C145_agree : forall p s, len s < INT_MAX -> (forall c, In c s -> ~ blank c) ->
  (forall x, int_of_chars s = Ok x <-> str_to_integer p s 10 = Ok x) /\
  (int_of_chars s = Throw WrongIntegerLiteral <-> str_to_integer p s 10 = Throw BadIntegerLiteral).
Proof. exact literals_agree. Qed.
Print Assumptions C145_agree.

Theorem C145_accepted : forall p s x, len s < INT_MAX -> int_of_chars s = Ok x -> str_to_integer p s 10 = Ok x.
Proof. exact int_accepted_by_str. Qed.
Print Assumptions C145_accepted.

Theorem C145_printed : forall p x, canonical x -> len (int_print x) < INT_MAX -> str_to_integer p (int_print x) 10 = Ok x.
Proof. exact print_to_integer. Qed.
Print Assumptions C145_printed.

(** The converse needs the hypothesis on blanks. *)
Theorem C145_blanks : forall p, exists s x, len s < INT_MAX /\ str_to_integer p s 10 = Ok x /\ int_of_chars s = Throw WrongIntegerLiteral.
Proof. exact blanks_differ. Qed.
Print Assumptions C145_blanks.

Example C145_case : let s := chars "-0120" in len s < INT_MAX /\ (forall c, In c s -> ~ blank c) /\
  int_of_chars s = Ok (MkInt (-1) [0; 2; 1]) /\ str_to_integer Strict s 10 = Ok (MkInt (-1) [0; 2; 1]) /\
  int_of_chars (chars "1-2") = Throw WrongIntegerLiteral /\ str_to_integer Strict (chars "1-2") 10 = Throw BadIntegerLiteral.
Proof.
  split; [reflexivity|]. split; [|vm_compute; auto].
  intros c H B. cbn in H. repeat (destruct H as [<-|H]; [destruct B as [B|[B|[B|B]]]; discriminate B|]). contradiction.
Qed.
