(** Decimal text of a machine integer: what [os << n] and [std::to_string(n)]
    write for a built-in integer with default stream flags. Not library code; the
    notation is that of Coq's own decimal printer, so it is not defined by us. *)
From Coq Require Import ZArith List Ascii String DecimalString.
Open Scope Z_scope.

Definition show_int (z : Z) : list ascii :=
  list_ascii_of_string (NilZero.string_of_int (Z.to_int z)).
