(** What the properties about streams with exceptions speak of. *)
From Coq Require Import ZArith List Bool Ascii.
From Verif Require Import Outcome IntModel IntSpec StreamModel FracModel FracSpec ExnStreamModel.
Import ListNotations.
Open Scope Z_scope.

(** The state has a bit for which an exception is wanted. *)
Definition reported (m : mask) (s : istream) : Prop := (on_eof m = true /\ eofbit s = true) \/ (on_fail m = true /\ failbit s = true).

(** [x] is what becomes of the call [p] made without exceptions: the same if no bit of the mask is set at its end, otherwise
    [std::ios_base::failure] with the target [old] unchanged. *)
Definition masked {B} (m : mask) (old : B) (p : outcome unit * (istream * B)) (x : left_behind B) : Prop :=
  (~ reported m (fst (snd p)) -> x = (Ends (fst p), snd p)) /\
  (reported m (fst (snd p)) -> exists s, x = (Failure, (s, old)) /\ reported m s).

(** Nothing to read: a stream that is not good, or only white space left. *)
Definition nothing (s : istream) : Prop := eofbit s = true \/ failbit s = true \/ Forall blank (buf s).
(** ... and the mask does not help. *)
Definition unending (m : mask) (s : istream) : Prop :=
  nothing s /\ on_fail m = false /\ (on_eof m = true -> eofbit s = false /\ failbit s = true).

(** Texts of a fraction. *)
Inductive fraction_text : list ascii -> Z -> Z -> Prop :=
| whole : forall t n, literal t = Some n -> fraction_text t n 1
| quotient : forall t n u d, literal t = Some n -> literal u = Some d -> fraction_text (t ++ "/"%char :: u) n d.

(** Numbers written with white space after each. *)
Definition spaced {A} (print : A -> list ascii) (items : list (A * list ascii)) : list ascii :=
  flat_map (fun it => print (fst it) ++ snd it) items.
Definition white_runs {A} (items : list (A * list ascii)) : Prop := Forall (fun it => snd it <> [] /\ Forall blank (snd it)) items.
