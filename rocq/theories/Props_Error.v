(** Property C182: the exceptions clients see. Theorems only; each is an instance of a lemma proved elsewhere and is
    followed by its assumptions and by a concrete case. *)
From Coq Require Import String Ascii ZArith List Bool Lia.
From Verif Require Import Outcome IntModel ListSpec SetSpec ListProgModel ListProgSpec ErrorSpec ErrorFacts ExTools.
Import ListNotations.
Open Scope Z_scope.

(** The text tells the exceptions apart. *)
Theorem C182_distinct : forall e e', message e = message e' -> e = e'.
Proof. exact message_inj. Qed.
Print Assumptions C182_distinct.

(** The exceptions thrown by the library itself, as opposed to those of the standard library, are those whose text begins with Error:. *)
Theorem C182_prefix : forall e, own e <-> exists rest, message e = ("Error: " ++ rest)%string.
Proof. exact message_error. Qed.
Print Assumptions C182_prefix.

(** Exactly these texts are seen by programs over List. *)
Theorem C182_list : forall (T : Type) (eqb lt : T -> T -> bool) (show : T -> list ascii) (d : T), decides eqb -> strict_weak lt ->
  forall m, list_text eqb lt show d m <->
  In m ["Error: Index out of range."; "Error: The container is empty."; "Error: The container has reached the maximum size.";
        "Error: Times to repeat can not be less than zero."; "Error: Slice step can not be zero."]%string.
Proof. exact @list_texts. Qed.
Print Assumptions C182_list.

Theorem C182_deque : forall (T : Type) (eqb : T -> T -> bool) (show : T -> list ascii), decides eqb -> T -> forall m, deque_text eqb show m <->
  In m ["Error: Index out of range."; "Error: The container is empty."; "Error: The container has reached the maximum size."]%string.
Proof. exact @deque_texts. Qed.
Print Assumptions C182_deque.

(** No other texts for any element type, and these for Set<int>. *)
Theorem C182_set : (forall T lt eqb (show : T -> list ascii), strict_total lt -> decides eqb -> forall m, set_text lt eqb show m ->
    In m ["Error: The container is empty."; "Error: The container has reached the maximum size."]%string) /\
  (forall show m, In m ["Error: The container is empty."; "Error: The container has reached the maximum size."]%string -> set_text Z.ltb Z.eqb show m).
Proof. exact set_texts. Qed.
Print Assumptions C182_set.

Theorem C182_dict : (forall K V ltk eqk ltv eqv (showk : K -> list ascii) (showv : V -> list ascii),
    strict_total ltk -> strict_total ltv -> decides eqk -> decides eqv -> forall m, dict_text ltk eqk ltv eqv showk showv m ->
    In m ["Error: The container is empty."; "Error: The container has reached the maximum size."; "Error: Key is not found in the dictionary."]%string) /\
  (forall showk showv m,
    In m ["Error: The container is empty."; "Error: The container has reached the maximum size."; "Error: Key is not found in the dictionary."]%string ->
    dict_text Z.ltb Z.eqb Z.ltb Z.eqb showk showv m).
Proof. exact dict_texts. Qed.
Print Assumptions C182_dict.

(** Programs over Str and List<Str>; the container is the list. *)
Theorem C182_str : forall q m, str_text q m <->
  In m ["Error: Index out of range."; "Error: The container has reached the maximum size."; "Error: Times to repeat can not be less than zero.";
        "Error: Slice step can not be zero."; "Error: Empty separator."; "Error: Invalid base for to_integer()."; "Error: Invalid literal for to_integer()."]%string.
Proof. exact str_texts. Qed.
Print Assumptions C182_str.

Theorem C182_fraction : forall m, frac_text m <-> m = "Error: Divide by zero."%string.
Proof. exact frac_texts. Qed.
Print Assumptions C182_fraction.

Theorem C182_int : forall m, int_text m <->
  In m ["Error: Wrong integer literal."; "Error: Divide by zero."; "Error: Negative integer have no factorial.";
        "Error: Cannot compute square root of a negative integer."; "Error: Math domain error."]%string.
Proof. exact int_texts. Qed.
Print Assumptions C182_int.

Example C182_case : sized (fun _ : lvar => @nil Z) /\ own IndexOutOfRange /\
  exists s, lrun Z.eqb Z.ltb (fun _ => []) 0 [LGet 0%nat 3; LRemove 0%nat 0] (fun _ => []) = Ok (s, [LThrow IndexOutOfRange; LThrow ContainerEmpty]) /\
  message ContainerEmpty = "Error: The container is empty."%string.
Proof.
  split; [intros v; cbn; unfold INT_MAX; lia|]. split; [split; discriminate|]. eexists. split; vm_compute; reflexivity.
Qed.
