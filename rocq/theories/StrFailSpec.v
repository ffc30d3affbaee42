(** Strs when memory may run out: what a call that fails leaves behind, for the client. *)
From Coq Require Import ZArith List Bool Ascii.
From Verif Require Import IntMemSpec Outcome StrSpec StrProgModel StrProgSpec FailModel FailRunModel StrFailModel.
Import ListNotations.
Open Scope Z_scope.

(** Every variable holds the same text, every list the same texts. *)
Definition agree (s s' : xstore) : Prop := (forall v, strs s' v = strs s v) /\ (forall l, rows s' l = rows s l).

(** The statements that do not write to a string stream. *)
Definition unstreamed (c : xstmt) (s : xstore) : Prop :=
  match c with
  | XFormat _ _ _ => False
  | XReplace _ _ w _ => strs s w <> []
  | _ => True
  end.

(** How a statement may end that goes through [base] when nothing fails: no allocation failed and it did what [base] says, or
    allocation [n] was the first to fail, the client saw the exception, and every variable is as it was. *)
Definition xends (ok : nat -> bool) (base : outcome (xstore * list StrProgModel.xevent)) (s : xstore) (k : nat) (r : fxresult) : Prop :=
  match r with
  | Ok (s', k', ev) =>
      ((k <= k')%nat /\ plenty ok k k' /\ exists s0 ev0, base = Ok (s0, ev0) /\ agree s0 (ftexts s') /\ ev = map Saw ev0) \/
      (exists n, ev = [Failed n] /\ (k <= n)%nat /\ k' = S n /\ ok n = false /\ plenty ok k n /\ agree s (ftexts s'))
  | Throw _ => False
  | UB u => base = UB u
  | OutOfFuel => base = OutOfFuel
  end.

(** The sizes at which a string stream needs new memory. *)
Definition brim (n : nat) : Prop := n = 15%nat \/ exists i, n = (512 * 2 ^ i)%nat.
(** [t'] is what the statement makes instead of [t] if the stream does not get it: what the stream held, and for [replace] the
    replacement before it. *)
Inductive truncated (s : xstore) : xstmt -> text -> text -> Prop :=
| tr_format : forall u v args t n, brim n -> (n < length t)%nat -> truncated s (XFormat u v args) t (firstn n t)
| tr_replace : forall u v w x t n, strs s w = [] -> brim n -> (length (strs s x) + n < length t)%nat ->
    truncated s (XReplace u v w x) t (firstn (length (strs s x) + n) t).
(** The variable a statement declares. *)
Definition declares (c : xstmt) (u : xvar) : Prop :=
  match c with XFormat u' _ _ | XReplace u' _ _ _ => u = u' | _ => False end.

(** How the others may end: as usual; with the exception of a failed allocation and everything as it was; or, an allocation
    having failed, without exception and with a text that is cut off. *)
Definition xtruncates (ok : nat -> bool) (c : xstmt) (t : text) (s : xstore) (k : nat) (r : fxresult) : Prop :=
  exists s' k' ev u, r = Ok (s', k', ev) /\ declares c u /\ (k <= k')%nat /\
  ((plenty ok k k' /\ agree (set_str s u t) (ftexts s') /\ ev = []) \/
   (exists n, ev = [Failed n] /\ (k <= n)%nat /\ k' = S n /\ ok n = false /\ agree s (ftexts s')) \/
   (IntMemSpec.short ok k k' /\ ev = [] /\ exists t', truncated s c t t' /\ agree (set_str s u t') (ftexts s'))).

(** The statements that allocate nothing. *)
Definition xeventless (c : xstmt) : Prop :=
  match c with
  | XMove _ _ | XMoveAssign _ _ | XAt _ _ | XSize _ | XEmpty _ | XFind _ _ _ _ | XContains _ _ _ _ | XCount _ _ | XStarts _ _ | XEnds _ _
  | XLess _ _ | XEqual _ _ | XPrint _ | XEach _ | XEachBack _ | XRowSize _ | XRowPrint _ => True
  | XAssign u v => u = v
  | _ => False
  end.

(** Programs on texts whose statements may fail. The states are compared variable by variable. *)
Inductive xsurvives : list xstmt -> xstore -> xstore -> list (seen StrProgModel.xevent) -> Prop :=
| xs_nil : forall e e', agree e e' -> xsurvives [] e e' []
| xs_done : forall c rest e e1 e1' e2 ev1 ev2, StrProgSpec.short e -> astep c e e1 ev1 -> agree e1 e1' -> xsurvives rest e1' e2 ev2 ->
    xsurvives (c :: rest) e e2 (map Saw ev1 ++ ev2)
| xs_failed : forall c rest e e' e2 n ev2, StrProgSpec.short e -> ~ xeventless c -> agree e e' -> xsurvives rest e' e2 ev2 ->
    xsurvives (c :: rest) e e2 (Failed n :: ev2)
| xs_cut : forall c rest u t t' e e1 e2 ev2, StrProgSpec.short e -> astep c e (set_str e u t) [] -> truncated e c t t' ->
    agree (set_str e u t') e1 -> xsurvives rest e1 e2 ev2 -> xsurvives (c :: rest) e e2 ev2.

(** ** Numbers of allocations *)

(** One for a text that does not fit into the object. *)
Definition long (n : nat) : nat := if Nat.leb n 15 then 0 else 1.
(** Reallocations of a string of the given capacity and size to which texts of these lengths are appended. *)
Fixpoint growths (room size : nat) (lens : list nat) : nat :=
  match lens with
  | [] => 0
  | n :: lens' =>
      if Nat.leb (size + n) room then growths room (size + n) lens'
      else S (growths (Nat.max (size + n) (2 * room)) (size + n) lens')
  end.
(** The allocations of a statement, if the text it makes has [r] characters. *)
Definition xevent_count (c : xstmt) (s : fxstore) (r : nat) : nat :=
  let n v := length (xchars (fstrs s v)) in
  (match c with
  | XInit _ _ | XInitStd _ _ | XCopy _ _ | XRowAt _ _ _ => long r
  | XAssign u v => if Nat.eqb u v then 0 else if Nat.leb (n v) (xroom (fstrs s u)) then 0 else 1
  | XPlusChar _ _ _ | XPlus _ _ _ | XTimes _ _ _ | XReverse _ _ | XLower _ _ | XUpper _ _ => 2 * long r
  | XShl _ _ z => if (z =? 0)%Z then long r else 2 * long r
  | XShr _ v z => if (z =? 0)%Z || (z =? Z.of_nat (n v))%Z then long r else 2 * long r
  | XErase _ v _ _ | XStrip _ v _ => long (n v) + long r
  | XSlice _ _ _ _ _ => growths 15 0 (repeat 1 r) + long r
  | XJoin _ v l =>
      match relems (frows s l) with
      | [] => 0
      | x :: rest =>
          long (length x) + fold_right (fun y a => long (n v + length y) + a) 0 rest +
          growths (Nat.max 15 (length x)) (length x) (map (fun y => n v + length y) rest) + long r
      end
  | XRowAppend l v =>
      long (n v) +
      (if Nat.ltb (length (relems (frows s l))) (rroom (frows s l)) then 0
       else 1 + fold_right (fun y a => long (length y) + a) 0 (relems (frows s l)))
  | _ => 0
  end)%nat.
(** The statements it is the number for, with the variable whose text is made. *)
Definition counted (c : xstmt) : option (option xvar) :=
  match c with
  | XInit u _ | XInitStd u _ | XCopy u _ | XRowAt u _ _ | XPlusChar u _ _ | XPlus u _ _ | XTimes u _ _ | XReverse u _ | XLower u _ | XUpper u _
  | XShl u _ _ | XShr u _ _ | XErase u _ _ _ | XStrip u _ _ | XSlice u _ _ _ _ | XJoin u _ _ => Some (Some u)
  | XFormat _ _ _ | XReplace _ _ _ _ | XSplit _ _ _ _ | XInteger _ _ => None
  | _ => Some None
  end.
(** The length of that text after the statement. *)
Definition made (c : xstmt) (s : fxstore) : nat :=
  match counted c with Some (Some u) => length (xchars (fstrs s u)) | _ => 0%nat end.

(** ** Witnesses *)

(** A text one character too long for the object itself, and a store that holds the given texts and no rows. *)
Definition sixteen : list ascii := repeat "a"%char 16.
Definition bare (t : nat -> list ascii) : fxstore := FXStore (fun v => Xstr (t v) (Nat.max LOCAL (length (t v)))) (fun _ => Rvec [] 0).
