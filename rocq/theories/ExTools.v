(** Decision procedure used by the worked examples only. *)
From Coq Require Import ZArith List Bool Ascii String Lia.
From Verif Require Import Outcome IntModel IntSpec IntBase.
Import ListNotations.
Open Scope Z_scope.

Definition canonicalb (x : Int) : bool :=
  forallb (fun d => (0 <=? d) && (d <=? 9)) (chunks x) && negb (last (chunks x) 1 =? 0) &&
  match chunks x with [] => sign x =? 0 | _ => (sign x =? 1) || (sign x =? -1) end.

Lemma repr_check : forall x z, canonicalb x = true -> value x = z -> repr x z.
Proof.
  intros x z H V. split; auto. unfold canonicalb in H.
  apply andb_true_iff in H as (H & S). apply andb_true_iff in H as (D & L).
  split; [|split; [|split]].
  - rewrite Forall_forall. rewrite forallb_forall in D. intros d I. specialize (D d I).
    apply andb_true_iff in D as (A & B). unfold digit. lia.
  - destruct (Z.eqb_spec (last (chunks x) 1) 0); [discriminate|auto].
  - destruct (chunks x); [lia|]. apply orb_true_iff in S as [S|S]; lia.
  - destruct (chunks x); [split; auto; lia|]. split; [|discriminate].
    intros E. rewrite E in S. discriminate.
Qed.

(** The characters of a string literal. *)
Definition chars (s : string) : list ascii := list_ascii_of_string s.
