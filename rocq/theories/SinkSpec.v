(** What the properties about streams that take only so many characters speak of. *)
From Coq Require Import String Ascii ZArith List Bool.
From Verif Require Import Show IntModel IntSpec FracModel ListModel DequeModel SetModel DictModel StrModel TupleModel OStreamModel SinkModel PrintSpec OStreamSpec.
Import ListNotations.
Open Scope Z_scope.

(** [os << x] for every type. *)
Fixpoint sput (m : omask) (t : ty) : thing t -> sink -> writing :=
  match t with
  | TMachine => s_int m
  | TInt => int_sput m
  | TFraction => frac_sput m
  | TStr => str_sput m
  | TList t => list_sput m (sput m t)
  | TDeque t => deq_sput m (sput m t)
  | TSet t => set_sput m (sput m t)
  | TDict k v => dict_sput m (sput m k) (sput m v)
  end.
(** [os << x << y << ...] *)
Fixpoint sput_all (m : omask) (l : list {t : ty & thing t}) (s : sink) : writing :=
  match l with
  | [] => Done s
  | existT _ t x :: l' => sput m t x s >> sput_all m l'
  end.

(** The stream that is left. *)
Definition left_by (r : writing) : sink := match r with Done s => s | Refused s => s end.
Definition is_refused (r : writing) : Prop := match r with Done _ => False | Refused _ => True end.

Definition sound (s : sink) : Prop := bad s = false /\ failed s = false.
(** [n] characters can be taken. *)
Definition takes (n : nat) (r : option nat) : Prop := match r with None => True | Some k => (n <= k)%nat end.
(** An exception is wanted for the state of the stream. *)
Definition wanted (m : omask) (s : sink) : Prop := (on_bad m = true /\ bad s = true) \/ (on_failed m = true /\ failed s = true).

(** [w] has been taken and the stream is as [os]. *)
Definition took (s : sink) (w : list ascii) (os : ostream) : sink :=
  Sink os (match room s with None => None | Some k => Some (k - length w)%nat end) false false.
(** The first [n] characters of [w] have been taken, and no more: the stream is bad. The exception has been thrown if it is wanted. *)
Definition cut_off (m : omask) (s : sink) (n : nat) (w : list ascii) (r : writing) : Prop :=
  let s' := left_by r in
  written (front s') = written (front s) ++ firstn n w /\ room s' = Some 0%nat /\ bad s' = true /\
  adjust (front s') = adjust (front s) /\ base (front s') = base (front s) /\ showpos (front s') = showpos (front s) /\
  (is_refused r <-> wanted m s').
(** Everything about writing [w] with the result [os], when the buffer can take [room s] characters. *)
Definition as_far_as_possible (m : omask) (s : sink) (w : list ascii) (os : ostream) (r : writing) : Prop :=
  (takes (length w) (room s) -> r = Done (took s w os)) /\
  (forall n, room s = Some n -> (n < length w)%nat -> cut_off m s n w r).

(** The value ends with a character of its own: a quote or a bracket. *)
Definition bracketed (t : ty) : Prop := match t with TMachine | TInt | TFraction => False | _ => True end.
