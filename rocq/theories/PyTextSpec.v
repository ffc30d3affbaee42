(** More of what Python's str does. Nothing here refers to the model of the library's functions. *)
From Coq Require Import String Ascii ZArith List Bool.
From Verif Require Import Outcome StrSpec.
Import ListNotations.
Open Scope Z_scope.

(** ** str.format *)

(** [r] is s.format(x, y, ...), where [args] are the texts str(x), str(y), ... A brace is written twice; [{}] stands for the
    next argument. Python raises an exception if there is no such [r], except that braces may also have names, numbers and
    specifications in them. *)
Inductive py_format : text -> list text -> text -> Prop :=
| pf_end : forall args, py_format [] args []
| pf_char : forall c s args r, c <> "{"%char -> c <> "}"%char -> py_format s args r -> py_format (c :: s) args (c :: r)
| pf_open : forall s args r, py_format s args r -> py_format ("{" :: "{" :: s)%char args ("{"%char :: r)
| pf_close : forall s args r, py_format s args r -> py_format ("}" :: "}" :: s)%char args ("}"%char :: r)
| pf_field : forall s x args r, py_format s args r -> py_format ("{" :: "}" :: s)%char (x :: args) (x ++ r).
Definition braceless (t : text) : Prop := ~ In "{"%char t /\ ~ In "}"%char t.

(** ** str.lower, str.upper for characters below 128 *)
Definition py_lower_char (c : ascii) : ascii := if (65 <=? byte c) && (byte c <=? 90) then ascii_of_N (Z.to_N (byte c + 32)) else c.
Definition py_upper_char (c : ascii) : ascii := if (97 <=? byte c) && (byte c <=? 122) then ascii_of_N (Z.to_N (byte c - 32)) else c.

(** ** str.count, str.replace, str.split with a separator *)

(** [n] is s.count(p). *)
Definition py_count (s p : text) (n : Z) : Prop :=
  (p = [] /\ n = size_of s + 1) \/ (p <> [] /\ exists ps, pieces p s ps /\ n = Z.of_nat (length ps) - 1).
(** [r] is s.replace(old, new). *)
Definition py_replace (s old new r : text) : Prop :=
  (old = [] /\ r = new ++ concat (map (fun c => c :: new) s)) \/ (old <> [] /\ exists ps, pieces old s ps /\ r = glue new ps).
