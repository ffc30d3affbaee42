(** Deques whose element copies and allocations may throw: numbers of events, exact remains, witnesses. *)
From Coq Require Import ZArith List Bool Ascii Lia.
From Verif Require Import Outcome ListModel DequeModel ListSpec DequeSpec ListFacts FailModel FailRunModel FailRunSpec FailCost DequeFailModel DequeFailSpec IntMemSpec DequeFail.
Import ListNotations.
Open Scope Z_scope.

Section Counts.
Context {T : Type}.
Variables (ok : nat -> bool) (nodes : nat -> nat).
Variables (eqb : T -> T -> bool) (show : T -> list ascii).
Notation step := (fdstep ok nodes eqb show).

Lemma kwp_room : forall St (s : St) k (Q : nat -> unit -> St -> Prop), Q (k + nodes k)%nat tt s -> kwp (fd_room ok nodes) s k Q.
Proof. intros St s k Q H. exact (kwp_events ok (nodes k) s k Q H). Qed.
Lemma assign_loop_count : forall n done todo (l : list T) k (Q : nat -> unit -> list T -> Prop), (n <= length todo)%nat ->
  (forall l', Q (k + n)%nat tt l') -> kwp (fd_assign_loop ok n done todo) l k Q.
Proof.
  induction n as [|n IH]; intros done todo l k Q L H; cbn [fd_assign_loop]; [apply kwp_ret; specialize (H l); rewrite Nat.add_0_r in H; exact H|].
  destruct todo as [|x todo]; cbn [length] in L; [lia|].
  apply kwp_bind, kwp_event, kwp_bind, kwp_get, kwp_bind, kwp_put, IH; [lia|]. intros l'. replace (S k + n)%nat with (k + S n)%nat by lia. apply H.
Qed.

Ltac looks := apply kwp_bind, kwp_get, kwp_bind, kwp_lift; intros ? ?.
Theorem dcounted : forall c s k s' k' ev, dsized s -> step c s k = Ok (s', k', ev) -> calm DThrow ev -> k' = (k + devent_count nodes c s k)%nat.
Proof.
  intros c s k s' k' ev Z E N.
  assert (CA : deventless c -> k' = k).
  { intros X. pose proof (dno_events ok nodes eqb show c s k X) as H. rewrite E in H. tauto. }
  assert (EX : forall m w, (forall l k, kwp (m w) l k (fun k' _ _ => k' = (k + match w with [] => 0 | _ => nodes k + length w end)%nat)) -> forall v w0, w = s w0 ->
    (if size (s w0) <=? INT_MAX - size (s v) then (if Nat.eqb v w0 then UB SelfRange else on_object DThrow s v k (m (s w0)) dsilent) else Ok (s, k, [])) = Ok (s', k', ev) ->
    k' = (k + (if (INT_MAX <? Z.of_nat (length (s v)) + Z.of_nat (length (s w0)))%Z then 0 else match s w0 with [] => 0 | _ => nodes k + length (s w0) end))%nat).
  { intros m w M v w0 -> X. pose proof (Z v) as Zv. pose proof (Z w0) as Zw. rewrite !size_ok in X by assumption.
    destruct (_ <=? _) eqn:L; unfold len in L.
    - destruct (Nat.eqb v w0); [discriminate|]. destruct (_ <? _) eqn:L2; [lia|].
      eapply (call_counts DThrow _ _ _ _ _ _ _ _ _ (fun n _ => n = _)) in X; [exact X|apply M|exact N].
    - injection X as <- <- <-. destruct (_ <? _) eqn:L2; [lia|lia]. }
  destruct c; cbn [devent_count]; try (rewrite Nat.add_0_r; apply CA; exact Logic.I); cbn [fdstep] in E.
  - eapply (new_counts DThrow _ _ _ _ _ _ _ (fun n _ => n = _)) in E; [exact E| |exact N].
    apply kwp_bind, kwp_room, kwp_bind, kwp_events, kwp_ret. lia.
  - destruct (Nat.eqb v w); [injection E as <- <- <-; lia|].
    eapply (call_counts DThrow _ _ _ _ _ _ _ _ _ (fun n _ => n = _)) in E; [exact E| |exact N].
    apply kwp_bind, kwp_get, kwp_bind, assign_loop_count; [lia|]. intros l'.
    apply kwp_bind. destruct (Nat.leb_spec (length (s w)) (length (s v))).
    + destruct (Nat.ltb_spec (length (s v)) (length (s w))); [lia|]. apply kwp_ret, kwp_put. lia.
    + destruct (Nat.ltb_spec (length (s v)) (length (s w))); [|lia]. replace (Nat.min (length (s v)) (length (s w))) with (length (s v)) by lia.
      apply kwp_bind, kwp_room, kwp_events, kwp_put. lia.
  - eapply (call_counts DThrow _ _ _ _ _ _ _ _ _ (fun n _ => n = _)) in E; [exact E| |exact N]. looks. apply kwp_bind, kwp_event, kwp_calm. intros. lia.
  - eapply (call_counts DThrow _ _ _ _ _ _ _ _ _ (fun n _ => n = _)) in E; [exact E| |exact N]. looks. apply kwp_bind, kwp_event, kwp_calm. intros. lia.
  - eapply (call_counts DThrow _ _ _ _ _ _ _ _ _ (fun n _ => n = _)) in E; [exact E| |exact N]. looks. apply kwp_bind, kwp_event, kwp_calm. intros. lia.
  - eapply (call_counts DThrow _ _ _ _ _ _ _ _ _ (fun n _ => n = _)) in E; [exact E| |exact N]. looks. apply kwp_bind, kwp_room, kwp_bind, kwp_event, kwp_put. lia.
  - eapply (call_counts DThrow _ _ _ _ _ _ _ _ _ (fun n _ => n = _)) in E; [exact E| |exact N]. looks. apply kwp_bind, kwp_room, kwp_bind, kwp_event, kwp_put. lia.
  - refine (EX (fd_extend_back ok nodes) (s w) _ v w eq_refl E). intros l j. unfold fd_extend_back. destruct (s w) as [|x r]; [apply kwp_ret; lia|].
    apply kwp_bind, kwp_get, kwp_bind, kwp_room, kwp_bind, kwp_events, kwp_put. lia.
  - refine (EX (fd_extend_front ok nodes) (s w) _ v w eq_refl E). intros l j. unfold fd_extend_front. destruct (s w) as [|x r]; [apply kwp_ret; lia|].
    apply kwp_bind, kwp_get, kwp_bind, kwp_room, kwp_bind, kwp_events, kwp_put. lia.
Qed.

(** [v = w] stopped at the copy of element [j] that both have. *)
Lemma assign_loop_fail : forall n j (done todo old : list T) k, (j < n)%nat -> (n <= length todo)%nat -> (length done + n <= length old)%nat ->
  plenty ok k (k + j)%nat -> ok (k + j)%nat = false ->
  fd_assign_loop ok n done todo (done ++ skipn (length done) old) k =
    (XErr (XFail (k + j)), done ++ firstn j todo ++ skipn (length done + j) old, S (k + j)).
Proof.
  induction n as [|n IH]; intros j done todo old k L Lt Lo P F; [lia|]. destruct todo as [|x todo]; cbn [length] in Lt; [lia|].
  cbn [fd_assign_loop]. unfold xbind at 1, xevent. destruct j as [|j].
  - rewrite Nat.add_0_r in F. rewrite F. cbn [firstn app]. rewrite !Nat.add_0_r. reflexivity.
  - rewrite (P k) by lia. unfold xbind, xget, xput.
    assert (LD : length (done ++ [x]) = S (length done)) by (rewrite app_length; cbn; lia).
    assert (ES : done ++ x :: skipn (S (length done)) (done ++ skipn (length done) old) = (done ++ [x]) ++ skipn (length (done ++ [x])) old).
    { rewrite <- app_assoc. cbn [app]. f_equal. f_equal. rewrite skipn_app, LD, (skipn_all2 done) by lia. cbn [app].
      replace (S (length done) - length done)%nat with 1%nat by lia.
      generalize (length done). clear. induction old as [|y old IHo]; intros [|m]; try reflexivity. apply (IHo m). }
    rewrite ES. replace (k + S j)%nat with (S k + j)%nat in * by lia. rewrite (IH j).
    + rewrite <- app_assoc. cbn [app firstn]. rewrite LD. replace (length done + S j)%nat with (S (length done) + j)%nat by lia. reflexivity.
    + lia.
    + lia.
    + lia.
    + intros i H. apply P. lia.
    + exact F.
Qed.
Theorem dcopy_stopped : forall v w s k j, v <> w -> (j < length (s w))%nat -> (j < length (s v))%nat ->
  plenty ok k (k + j)%nat -> ok (k + j)%nat = false ->
  step (DCopy v w) s k = Ok (dset s v (firstn j (s w) ++ skipn j (s v)), S (k + j), [Failed (k + j)]).
Proof.
  intros v w s k j N L1 L2 P F. cbn [fdstep]. apply Nat.eqb_neq in N. rewrite N. unfold on_object, fd_assign.
  unfold xbind at 1, xget. unfold xbind at 1.
  pose proof (assign_loop_fail (Nat.min (length (s v)) (length (s w))) j [] (s w) (s v) k ltac:(lia) ltac:(lia) ltac:(cbn; lia) P F) as A.
  cbn [app length skipn plus] in A. rewrite A. reflexivity.
Qed.
End Counts.

Lemma dcopy_witness : exists (ok : nat -> bool) nodes (s : dstore Z) s' k' n,
  fdstep ok nodes Z.eqb (fun _ => []) (DCopy 0%nat 1%nat) s 0%nat = Ok (s', k', [Failed n]) /\
  s 0%nat = [1; 2; 3] /\ s 1%nat = [4; 5] /\ s' 0%nat = [4; 2; 3].
Proof.
  exists (fun k => negb (Nat.eqb k 1)), (fun _ => 0%nat), (fun v => match v with O => [1; 2; 3] | _ => [4; 5] end).
  do 3 eexists. split; [reflexivity|]. split; [reflexivity|]. split; reflexivity.
Qed.
