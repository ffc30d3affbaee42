(** What it means for printed text to determine the printed value: nested containers. *)
From Coq Require Import String Ascii ZArith List Bool.
From Verif Require Import Show IntModel IntSpec FracModel FracSpec ListModel DequeModel SetModel DictModel StrModel TupleModel.
Import ListNotations.
Open Scope Z_scope.

(** The types built from [int], [Int], [Fraction] and [Str] with List, Deque, Set and Dict. *)
Inductive ty :=
| TMachine | TInt | TFraction | TStr
| TList (t : ty) | TDeque (t : ty) | TSet (t : ty) | TDict (k v : ty).

(** Their values; a set or dictionary is the sequence of its elements in iteration order. *)
Fixpoint thing (t : ty) : Type :=
  match t with
  | TMachine => Z
  | TInt => Int
  | TFraction => Fraction
  | TStr => str
  | TList t | TDeque t | TSet t => list (thing t)
  | TDict k v => list (thing k * thing v)
  end.

(** What [os << x] writes to a stream in its default state. *)
Fixpoint text (t : ty) : thing t -> list ascii :=
  match t with
  | TMachine => show_int
  | TInt => int_print
  | TFraction => frac_print
  | TStr => str_print
  | TList t => list_print (text t)
  | TDeque t => deq_print (text t)
  | TSet t => set_print (text t)
  | TDict k v => dict_print (text k) (text v)
  end.

(** Values the classes can hold: canonical Ints, fractions in lowest terms. *)
Fixpoint held (t : ty) : thing t -> Prop :=
  match t with
  | TMachine => fun _ => True
  | TInt => canonical
  | TFraction => valid
  | TStr => fun _ => True
  | TList t | TDeque t | TSet t => Forall (held t)
  | TDict k v => Forall (fun p => held k (fst p) /\ held v (snd p))
  end.

(** No string in the value contains a double quote. *)
Fixpoint unquoted (t : ty) : thing t -> Prop :=
  match t with
  | TStr => fun s => ~ In """"%char s
  | TList t | TDeque t | TSet t => Forall (unquoted t)
  | TDict k v => Forall (fun p => unquoted k (fst p) /\ unquoted v (snd p))
  | _ => fun _ => True
  end.

(** The property for every element of a tuple. *)
Fixpoint each {U} {el : U -> Type} (P : forall u, el u -> Prop) {us : list U} (t : tuple el us) : Prop :=
  match t with
  | TNil => True
  | @TCons _ _ u _ x t' => P u x /\ each P t'
  end.
