(** Vocabulary of the transcribed tests. *)
From Coq Require Import String Ascii ZArith List Bool.
From Verif Require Import Outcome ExTools.
Import ListNotations.
Open Scope Z_scope.

(** [REQUIRE(b)] and [REQUIRE(!b)] *)
Definition yes (o : outcome bool) : bool := match o with Ok b => b | _ => false end.
Definition no (o : outcome bool) : bool := match o with Ok b => negb b | _ => false end.
Definition isz (o : outcome Z) (z : Z) : bool := match o with Ok x => x =? z | _ => false end.
(** [REQUIRE_THROWS_MATCHES(e, std::runtime_error, Message("..."))] *)
Definition throws {A} (o : outcome A) (s : string) : bool := match o with Throw e => String.eqb (message e) s | _ => false end.
(** the same, for a call that may change its object *)
Definition throws' {A S} (o : outcome A * S) (s : string) : bool := throws (fst o) s.
Definition text (l : list ascii) (s : string) : bool := if list_eq_dec ascii_dec l (chars s) then true else false.
Definition all (l : list bool) : bool := forallb (fun b => b) l.
Definition newline : list ascii := ["010"%char].
Definition tab : list ascii := ["009"%char].
