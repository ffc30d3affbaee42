(** For the examples: the events of a run, without computing its last state. *)
From Verif Require Import Outcome.

Definition seen {S E : Type} (o : outcome (S * E)) : option E := match o with Ok (_, ev) => Some ev | _ => None end.
Lemma seen_ok : forall S E (o : outcome (S * E)) ev, seen o = Some ev -> exists s, o = Ok (s, ev).
Proof. intros S E [[s e]|?|?|] ev H; inversion H; subst; eauto. Qed.
