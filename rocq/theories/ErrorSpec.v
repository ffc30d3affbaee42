(** Which error texts client programs can see. *)
From Coq Require Import String Ascii ZArith List Bool.
From Verif Require Import Outcome IntModel IntSpec IntProgModel IntProgSpec FracModel FracProgModel FracSpec ListProgModel ListProgSpec
  DequeModel DequeSpec SetModel SetSpec DictModel DictSpec StrModel StrProgModel StrProgSpec.
Import ListNotations.
Open Scope Z_scope.

(** Some program over the class catches an exception with [what() == m]. *)
Definition list_text {T} (eqb lt : T -> T -> bool) (show : T -> list ascii) (d : T) (m : string) : Prop :=
  exists prog s s' ev e, sized s /\ Forall int_stmt prog /\ lrun eqb lt show d prog s = Ok (s', ev) /\ In (LThrow e) ev /\ message e = m.
Definition deque_text {T} (eqb : T -> T -> bool) (show : T -> list ascii) (m : string) : Prop :=
  exists prog s s' ev e, dsized s /\ Forall dint_stmt prog /\ drun eqb show prog s = Ok (s', ev) /\ In (DThrow e) ev /\ message e = m.
Definition set_text {T} (lt eqb : T -> T -> bool) (show : T -> list ascii) (m : string) : Prop :=
  exists prog s a s' ev e, stands lt s a /\ Forall tint_stmt prog /\ trun lt eqb show prog s = Ok (s', ev) /\ In (TThrow e) ev /\ message e = m.
Definition dict_text {K V} (ltk eqk : K -> K -> bool) (ltv eqv : V -> V -> bool) (showk : K -> list ascii) (showv : V -> list ascii) (m : string) : Prop :=
  exists prog s a s' ev e, mstands ltk s a /\ Forall mint_stmt prog /\ mrun ltk eqk ltv eqv showk showv prog s = Ok (s', ev) /\
    In (MThrow e) ev /\ message e = m.
Definition str_text (q : policy) (m : string) : Prop :=
  exists prog s s' ev e, Forall xint prog /\ arun prog s s' ev /\ xrun ConstBenign q prog s = Ok (s', ev) /\ In (XThrow e) ev /\ message e = m.
Definition frac_text (m : string) : Prop :=
  exists fuel prog s s' ev e, (forall v, valid (s v)) /\ Forall int_args prog /\ FracProgModel.frun fuel prog s = Ok (s', ev) /\
    In (EThrow e) ev /\ message e = m.
(** Programs over Int that do not reach one of the calls without a result. *)
Definition int_text (m : string) : Prop :=
  exists prog s a s' a' ev e, represents s a /\ IntProgSpec.zrun prog a a' ev /\ converges (fun fuel => run Benign fuel prog s) (Ok (s', ev)) /\
    In (EThrow e) ev /\ message e = m.

(** The exceptions the library throws itself. *)
Definition own (e : exn) : Prop := e <> StdOutOfRange /\ e <> StdLengthError.
