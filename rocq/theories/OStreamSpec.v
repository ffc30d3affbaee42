(** What printing to a stream with formatting state should do. *)
From Coq Require Import String Ascii ZArith List Bool.
From Verif Require Import Show IntModel IntSpec FracModel ListModel DequeModel SetModel DictModel StrModel TupleModel OStreamModel PrintSpec.
Import ListNotations.
Open Scope Z_scope.

(** [os << x] for every type. *)
Fixpoint put (t : ty) : thing t -> ostream -> ostream :=
  match t with
  | TMachine => put_int
  | TInt => int_put
  | TFraction => frac_put
  | TStr => str_put
  | TList t => list_put (put t)
  | TDeque t => deq_put (put t)
  | TSet t => set_put (put t)
  | TDict k v => dict_put (put k) (put v)
  end.

(** A stream that prints in decimal and without '+'; a new stream is one, with width 0. *)
Definition decimal (os : ostream) : Prop := base os = Dec /\ showpos os = false.

(** The value contains an Int of two digits or more. *)
Fixpoint wide (t : ty) : thing t -> bool :=
  match t with
  | TInt => fun x => 10 <=? Z.abs (value x)
  | TList t | TDeque t | TSet t => existsb (wide t)
  | TDict k v => existsb (fun p => wide k (fst p) || wide v (snd p))
  | _ => fun _ => false
  end.
Fixpoint any {U} {el : U -> Type} (P : forall u, el u -> bool) {us : list U} (t : tuple el us) : bool :=
  match t with
  | TNil => false
  | @TCons _ _ u _ x t' => P u x || any P t'
  end.

(** [s] is appended, the width becomes 0, the fill character is '0' if [zero] and stays otherwise. *)
Definition appended (s : list ascii) (zero : bool) (os : ostream) : ostream :=
  OStream (written os ++ s) 0 (if zero then "0"%char else fill os) (adjust os) (base os) (showpos os).

(** The piece that is written first: the whole number for an [int], the numerator, or one character. *)
Definition lead_length (t : ty) : thing t -> nat :=
  match t with
  | TMachine => fun z => length (show_int z)
  | TFraction => fun f => length (show_int (num f))
  | _ => fun _ => 1%nat
  end.
(** [s] padded as a unit to the width of the stream. *)
Definition aligned (os : ostream) (s : list ascii) : list ascii :=
  let p := repeat (fill os) (Z.to_nat (width os - Z.of_nat (length s))) in
  match adjust os with
  | SRight => p ++ s
  | SLeft => s ++ p
  | SInternal => match s with
                 | c :: ((_ :: _) as d) => if Ascii.eqb c "-"%char then c :: p ++ d else p ++ s
                 | _ => p ++ s
                 end
  end.

(** Values printed one after the other. *)
Fixpoint put_all (l : list {t : ty & thing t}) (os : ostream) : ostream :=
  match l with
  | [] => os
  | existT _ t x :: l' => put_all l' (put t x os)
  end.

(** A stream that prints in decimal and with '+' (std::showpos). *)
Definition plussed (os : ostream) : Prop := base os = Dec /\ showpos os = true.
(** What such a stream writes: '+' before every [int] that is not negative. An Int writes its
    sign, if it has one, and then its leading digit as an [int]. *)
Definition plus_int (z : Z) : list ascii := if z <? 0 then show_int z else "+"%char :: show_int z.
Fixpoint plus_text (t : ty) : thing t -> list ascii :=
  match t with
  | TMachine => plus_int
  | TInt => fun x =>
      if value x =? 0 then ["0"%char]
      else (if value x <? 0 then ["-"%char] else []) ++ "+"%char :: show_int (Z.abs (value x))
  | TFraction => fun f => if den f =? 1 then plus_int (num f) else plus_int (num f) ++ "/"%char :: plus_int (den f)
  | TStr => str_print
  | TList t => list_print (plus_text t)
  | TDeque t => deq_print (plus_text t)
  | TSet t => set_print (plus_text t)
  | TDict k v => dict_print (plus_text k) (plus_text v)
  end.
