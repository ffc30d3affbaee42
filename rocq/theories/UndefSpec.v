(** The calls on Deque, Set and Dict that the code leaves undefined; for List see [lundef]. *)
From Coq Require Import ZArith List.
From Verif Require Import Outcome DequeModel SetModel DictModel.
Open Scope Z_scope.

Definition dundef {T} (c : dstmt T) (s : dstore T) : Prop :=
  let n v := Z.of_nat (length (s v)) in
  match c with
  | DMove v w => v = w
  | DExtendBack v w | DExtendFront v w => v = w /\ n v + n w <= INT_MAX
  | DShr v k => k = INT_MIN /\ 1 < n v
  | _ => False
  end.

Definition tundef {T} (c : tstmt T) (s : tstore T) : Prop :=
  let n v := Z.of_nat (length (s v)) in
  match c with
  | TMove v w => v = w
  | TExtendSet v w => v = w /\ n v + n w <= INT_MAX
  | _ => False
  end.

Definition mundef {K V} (c : mstmt K V) (s : mstore K V) : Prop :=
  let n v := Z.of_nat (length (s v)) in
  match c with
  | MMove v w => v = w
  | MExtendDict v w => v = w /\ n v + n w <= INT_MAX
  | MMin v | MMax v => s v = nil
  | _ => False
  end.
