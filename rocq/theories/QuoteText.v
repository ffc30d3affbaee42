(** C139: which Lists and Deques of Str print as another one does. *)
From Coq Require Import String Ascii ZArith List Bool Lia.
From Verif Require Import Outcome Show ListModel ListSpec ListMore DequeModel StrModel PrintSpec ExTools.
Import ListNotations.
Open Scope Z_scope.

Local Notation sep := (chars """, """).
Local Notation q := """"%char.

(** The strings joined by quote, comma, space, quote. *)
Fixpoint between_quotes (l : list str) : str :=
  match l with [] => [] | [s] => s | s :: l' => s ++ sep ++ between_quotes l' end.

Lemma commas_quotes : forall s l, commas (map str_print (s :: l)) = q :: between_quotes (s :: l) ++ [q].
Proof.
  intros s l. revert s. induction l as [|t l IH]; intros s; [reflexivity|].
  change (commas (map str_print (s :: t :: l))) with (str_print s ++ chars ", " ++ commas (map str_print (t :: l))). rewrite IH.
  change (between_quotes (s :: t :: l)) with (s ++ sep ++ between_quotes (t :: l)). unfold str_print.
  cbn [app]. rewrite <- !app_assoc. f_equal.
Qed.
Lemma texts_joined : forall o c l m, print_range str_print l o c = print_range str_print m o c <->
  (l = [] <-> m = []) /\ between_quotes l = between_quotes m.
Proof.
  intros o c l m. rewrite !print_spec.
  destruct l as [|s l], m as [|t m].
  - tauto.
  - rewrite commas_quotes. cbn [map commas app]. split; [|intros ((H & _) & _); specialize (H eq_refl); discriminate].
    intros H. apply (f_equal (@length ascii)) in H. cbn [length app] in H. rewrite !app_length in H. cbn [length] in H. lia.
  - rewrite commas_quotes. cbn [map commas app]. split; [|intros ((_ & H) & _); specialize (H eq_refl); discriminate].
    intros H. apply (f_equal (@length ascii)) in H. cbn [length app] in H. rewrite !app_length in H. cbn [length] in H. lia.
  - rewrite !commas_quotes. split.
    + intros H. split; [split; discriminate|]. injection H as H. apply app_inv_tail in H. apply app_inv_tail in H. auto.
    + intros (_ & ->). auto.
Qed.

Lemma joined_another : forall l : list str, (exists m, m <> l /\ (l = [] <-> m = []) /\ between_quotes l = between_quotes m) <->
  (2 <= length l)%nat \/ exists a b, l = [a ++ sep ++ b].
Proof.
  intros [|s [|t l]].
  - split; [|intros [H|(a & b & H)]; [cbn in H; lia|discriminate]]. intros (m & N & (H & _) & _). destruct N. apply H. auto.
  - split.
    + intros (m & N & (_ & H) & E). right. destruct m as [|u [|v m]].
      * specialize (H eq_refl). discriminate.
      * cbn in E. congruence.
      * change (between_quotes (u :: v :: m)) with (u ++ sep ++ between_quotes (v :: m)) in E. cbn in E. eexists _, _. rewrite E. reflexivity.
    + intros [H|(a & b & H)]; [cbn in H; lia|]. exists [a; b]. split; [discriminate|]. split; [split; discriminate|]. injection H as ->. reflexivity.
  - split; [intros _; left; cbn; lia|]. intros _. exists [between_quotes (s :: t :: l)]. split; [discriminate|]. split; [split; discriminate|reflexivity].
Qed.

Theorem list_another : forall l, (exists m, m <> l /\ text (TList TStr) m = text (TList TStr) l) <-> (2 <= length l)%nat \/ exists a b, l = [a ++ sep ++ b].
Proof.
  intros l. rewrite <- joined_another. split; intros (m & N & H); exists m; (split; [exact N|]).
  - symmetry in H. apply texts_joined in H. exact H.
  - symmetry. apply texts_joined. exact H.
Qed.
Theorem deque_another : forall l, (exists m, m <> l /\ text (TDeque TStr) m = text (TDeque TStr) l) <-> (2 <= length l)%nat \/ exists a b, l = [a ++ sep ++ b].
Proof.
  intros l. rewrite <- joined_another. split; intros (m & N & H); exists m; (split; [exact N|]).
  - symmetry in H. apply texts_joined in H. exact H.
  - symmetry. apply texts_joined. exact H.
Qed.

(** Strings without quote and comma next to each other. *)
Lemma cut_here : forall s t u v : str, (forall a b, s <> a ++ q :: ","%char :: b) -> (forall a b, t <> a ++ q :: ","%char :: b) ->
  s ++ q :: ","%char :: u = t ++ q :: ","%char :: v -> s = t /\ u = v.
Proof.
  induction s as [|c s IH]; intros [|d t] u v A B E.
  - injection E as E. auto.
  - cbn [app] in E. injection E as E1 E2. subst d. destruct t as [|d t]; [discriminate|]. cbn [app] in E2. injection E2 as E2 E3. subst d. destruct (B [] t). reflexivity.
  - cbn [app] in E. injection E as E1 E2. subst c. destruct s as [|c s]; [discriminate|]. cbn [app] in E2. injection E2 as E2 E3. subst c. destruct (A [] s). reflexivity.
  - cbn [app] in E. injection E as E1 E2. subst d. destruct (IH t u v) as (-> & ->); auto.
    + intros a b ->. apply (A (c :: a) b). reflexivity.
    + intros a b ->. apply (B (c :: a) b). reflexivity.
Qed.
Lemma joined_inj : forall l m, Forall (fun s => forall a b, s <> a ++ q :: ","%char :: b) l -> Forall (fun s => forall a b, s <> a ++ q :: ","%char :: b) m ->
  (l = [] <-> m = []) -> between_quotes l = between_quotes m -> l = m.
Proof.
  induction l as [|s l IH]; intros m A B N E.
  - symmetry. apply N. auto.
  - destruct m as [|t m]; [apply N; auto|]. inversion A as [|? ? A1 A2]; subst. inversion B as [|? ? B1 B2]; subst.
    destruct l as [|s' l], m as [|t' m].
    + cbn in E. congruence.
    + cbn [between_quotes] in E. destruct (A1 t (" "%char :: q :: between_quotes (t' :: m))). exact E.
    + cbn [between_quotes] in E. symmetry in E. destruct (B1 s (" "%char :: q :: between_quotes (s' :: l))). exact E.
    + change (s ++ q :: ","%char :: " "%char :: q :: between_quotes (s' :: l) = t ++ q :: ","%char :: " "%char :: q :: between_quotes (t' :: m)) in E.
      apply cut_here in E; auto. destruct E as (-> & E). injection E as E. f_equal. apply IH; auto. split; discriminate.
Qed.
Theorem texts_differ : forall l m, Forall (fun s => forall a b, s <> a ++ q :: ","%char :: b) l -> Forall (fun s => forall a b, s <> a ++ q :: ","%char :: b) m ->
  text (TList TStr) l = text (TList TStr) m \/ text (TDeque TStr) l = text (TDeque TStr) m \/ text (TSet TStr) l = text (TSet TStr) m -> l = m.
Proof.
  intros l m A B H. assert (E: (l = [] <-> m = []) /\ between_quotes l = between_quotes m).
  { destruct H as [H|[H|H]]; apply texts_joined in H; exact H. }
  destruct E. apply joined_inj; auto.
Qed.
