(** Sets whose element copies and allocations may throw: numbers of events, exact remains, witnesses. *)
From Coq Require Import ZArith List Bool Ascii Lia.
From Verif Require Import IntMemSpec Outcome ListModel SetModel ListSpec SetSpec ListFacts FailModel FailRunModel FailRunSpec FailCost SetFailModel SetFailSpec SetFacts SetFail.
Import ListNotations.
Open Scope Z_scope.

Section Counts.
Context {T : Type}.
Variables (ok : nat -> bool) (cost : nat) (lt eqb : T -> T -> bool) (show : T -> list ascii).
Notation step := (fsstep ok cost lt eqb show).

Lemma lower_app : forall x (l a b : list T), lower_bound lt x l = (a, b) -> l = a ++ b.
Proof.
  induction l as [|y l IH]; intros a b E; cbn [lower_bound] in E; [injection E as <- <-; reflexivity|].
  destruct (lt y x); [|injection E as <- <-; reflexivity].
  destruct (lower_bound lt x l) as (a1, b1). injection E as <- <-. cbn [app]. f_equal. auto.
Qed.
Lemma insert_length : forall x (l : list T), length (snd (std_insert lt x l)) = (length l + if fst (std_insert lt x l) then 1 else 0)%nat.
Proof.
  intros x l. unfold std_insert. destruct (lower_bound lt x l) as (a, b) eqn:E. apply lower_app in E. subst l.
  destruct b as [|y b]; [cbn [fst snd]; rewrite !app_length; cbn; lia|].
  destruct (lt x y); cbn [fst snd]; rewrite ?app_length; cbn; lia.
Qed.

(** Each element that comes in is paid for. *)
Definition paid (k : nat) (l : list T) (k' : nat) (l' : list T) : Prop :=
  (k' + S cost * length l = k + S cost * length l' /\ length l <= length l')%nat.
Lemma kwp_insert : forall x l k (Q : nat -> bool -> list T -> Prop),
  (forall k' b l', paid k l k' l' -> Q k' b l') -> kwp (fs_insert ok cost lt x) l k Q.
Proof.
  intros x l k Q H. unfold fs_insert. apply kwp_bind, kwp_get. pose proof (insert_length x l) as L. destruct (std_insert lt x l) as [[|] l']; cbn [fst snd] in L.
  - apply kwp_bind, kwp_event, kwp_bind, kwp_events, kwp_bind, kwp_put, kwp_ret, H. split; nia.
  - apply kwp_ret, H. split; lia.
Qed.
Lemma kwp_range : forall xs l k (Q : nat -> unit -> list T -> Prop),
  (forall k' l', paid k l k' l' -> Q k' tt l') -> kwp (fs_insert_range ok cost lt xs) l k Q.
Proof.
  induction xs as [|x xs IH]; intros l k Q H; cbn [fs_insert_range].
  - apply kwp_ret, H. split; lia.
  - apply kwp_bind, kwp_insert. intros k1 b l1 P1. apply IH. intros k2 l2 P2. apply H. unfold paid in *. lia.
Qed.
Lemma kwp_of : forall St xs (s : St) k (Q : nat -> list T -> St -> Prop),
  (forall r, Q (k + S cost * length r)%nat r s) -> kwp (fs_of ok cost lt xs) s k Q.
Proof.
  intros St xs s k Q H. apply kwp_bind, kwp_local, kwp_range. intros k' l' (P & _). cbn [length] in P. apply kwp_ret. cbn [snd].
  replace k' with (k + S cost * length l')%nat by lia. apply H.
Qed.
Lemma kwp_clone : forall (w : list T) n l k (Q : nat -> unit -> list T -> Prop), Q (k + (cost * length w + (length w - n)))%nat tt l -> kwp (fs_clone ok cost w n) l k Q.
Proof.
  induction w as [|x w IH]; intros n l k Q H; cbn [fs_clone].
  - apply kwp_ret. cbn [length] in H. replace k with (k + (cost * 0 + (0 - n)))%nat by lia. exact H.
  - cbn [length] in H. destruct n as [|n].
    + apply kwp_bind, kwp_event, kwp_bind, kwp_events, IH.
      replace (S k + cost + (cost * length w + (length w - 0)))%nat with (k + (cost * S (length w) + (S (length w) - 0)))%nat by nia. exact H.
    + apply kwp_bind, kwp_events, IH.
      replace (k + cost + (cost * length w + (length w - n)))%nat with (k + (cost * S (length w) + (S (length w) - S n)))%nat by nia. exact H.
Qed.

Lemma guard_counts : forall (s : tstore T) v w k r s' k' ev, Z.of_nat (length (s v)) <= INT_MAX -> Z.of_nat (length (s w)) <= INT_MAX ->
  fs_guard s k (size (s w)) (s v) r = Ok (s', k', ev) ->
  if (INT_MAX <? Z.of_nat (length (s v)) + Z.of_nat (length (s w)))%Z then k' = k /\ s' = s else r = Ok (s', k', ev).
Proof.
  intros s v w k r s' k' ev Lv Lw E. unfold fs_guard in E. rewrite !size_ok in E by assumption. unfold len in E.
  destruct (Z.leb_spec (Z.of_nat (length (s w))) (INT_MAX - Z.of_nat (length (s v)))); destruct (Z.ltb_spec INT_MAX (Z.of_nat (length (s v)) + Z.of_nat (length (s w)))); try lia.
  - exact E.
  - injection E as <- <- _. auto.
Qed.

Theorem tcounted : forall c s k s' k' ev, (forall v, Z.of_nat (length (s v)) <= INT_MAX) ->
  step c s k = Ok (s', k', ev) -> calm TThrow ev -> k' = (k + tevent_count cost c s s')%nat.
Proof.
  intros c s k s' k' ev Z E N.
  assert (CA : teventless c -> k' = k).
  { intros X. pose proof (tno_events ok cost lt eqb show c s k X) as H. rewrite E in H. tauto. }
  assert (NEW : forall u xs, new_object TThrow s u k (fs_of ok cost lt xs) = Ok (s', k', ev) -> k' = (k + S cost * length (s' u))%nat).
  { intros u xs X. refine (new_counts TThrow _ s u k s' k' ev (fun n r => n = (k + S cost * length r)%nat) _ X N). apply kwp_of. reflexivity. }
  assert (EXT : forall v xs, on_object TThrow s v k (fs_extend ok cost lt xs) tsilent = Ok (s', k', ev) -> k' = (k + S cost * (length (s' v) - length (s v)))%nat).
  { intros v xs X. assert (P : paid k (s v) k' (s' v)).
    { refine (call_counts TThrow _ _ s v k tsilent s' k' ev (fun n r => paid k (s v) n r) _ X N). apply kwp_range. auto. }
    destruct P as (P1 & P2). nia. }
  assert (OPA : forall v (f : list T -> list T),
    on_object TThrow s v k (a <~ xget ;; r <~ fs_of ok cost lt (f a) ;; xput r) tsilent = Ok (s', k', ev) -> k' = (k + S cost * length (s' v))%nat).
  { intros v f X. refine (call_counts TThrow _ _ s v k tsilent s' k' ev (fun n r => n = (k + S cost * length r)%nat) _ X N).
    apply kwp_bind, kwp_get, kwp_bind, kwp_of. intros r. apply kwp_put. reflexivity. }
  assert (LOOK : forall o, looking TThrow s k (x <~ xlift o ;; xevents ok cost ;~ xret x) (fun x : T => [TElem x]) = Ok (s', k', ev) -> k' = (k + cost)%nat).
  { intros o X. assert (P : exists a : T, k' = (k + cost)%nat /\ ev = map Saw [TElem a]).
    { refine (look_counts TThrow _ _ s k (fun x : T => [TElem x]) s' k' ev (fun n _ => n = (k + cost)%nat) _ X N).
      apply kwp_bind, kwp_lift. intros x _. apply kwp_bind, kwp_events, kwp_ret. reflexivity. }
    destruct P as (_ & P & _). exact P. }
  destruct c; cbn [tevent_count]; try (rewrite Nat.add_0_r; apply CA; exact Logic.I); cbn [fsstep] in E.
  - exact (NEW _ _ E).
  - destruct (Nat.eqb v w) eqn:V; [injection E as _ <- _; lia|].
    refine (call_counts TThrow _ _ s v k tsilent s' k' ev (fun n _ => n = (k + (cost * length (s w) + (length (s w) - length (s v))))%nat) _ E N).
    apply kwp_bind, kwp_get, kwp_bind, kwp_put, kwp_bind, kwp_clone, kwp_put. reflexivity.
  - assert (P : paid k (s v) k' (s' v)).
    { refine (call_counts TThrow _ _ s v k (fun b => [TBool b]) s' k' ev (fun n r => paid k (s v) n r) _ E N).
      apply kwp_bind, kwp_get, kwp_bind, kwp_lift. intros _ _. apply kwp_insert. auto. }
    destruct P as (P1 & P2). nia.
  - refine (call_counts TThrow _ _ s v k (fun x => [TElem x]) s' k' ev (fun n _ => n = (k + cost)%nat) _ E N).
    apply kwp_bind, kwp_get, kwp_bind, kwp_lift. intros _ _. destruct (s v) as [|x a]; [apply kwp_lift; discriminate|].
    apply kwp_bind, kwp_put, kwp_bind, kwp_events, kwp_ret. reflexivity.
  - unfold fs_guard in E. destruct (_ <=? _); [exact (EXT _ _ E)|]. injection E as <- <- _. nia.
  - unfold fs_guard in E. destruct (_ <=? _); [|injection E as <- <- _; nia]. destruct (Nat.eqb v w); [discriminate|]. exact (EXT _ _ E).
  - exact (NEW _ _ E).
  - apply guard_counts in E; auto. destruct (_ <? _); [destruct E; lia|exact (NEW _ _ E)].
  - exact (NEW _ _ E).
  - apply guard_counts in E; auto. destruct (_ <? _); [destruct E; lia|exact (NEW _ _ E)].
  - exact (OPA v (fun a => std_intersection lt a (s w)) E).
  - apply guard_counts in E; auto. destruct (_ <? _); [destruct E; lia|exact (OPA v (fun a => std_union lt a (s w)) E)].
  - exact (OPA v (fun a => std_difference lt a (s w)) E).
  - apply guard_counts in E; auto. destruct (_ <? _); [destruct E; lia|exact (OPA v (fun a => std_symmetric_difference lt a (s w)) E)].
  - exact (LOOK _ E).
  - exact (LOOK _ E).
Qed.

(** ** Exact remains *)
Lemma run_node_ok : forall A (f : xm (list T) A) l k, plenty ok k (k + S cost)%nat -> (xevent ok ;~ xevents ok cost ;~ f) l k = f l (k + S cost)%nat.
Proof.
  intros A f l k P. unfold xbind at 1, xevent. rewrite (P k) by lia. unfold xbind. rewrite run_events_ok.
  - replace (S k + cost)%nat with (k + S cost)%nat by lia. reflexivity.
  - intros j H. apply P. lia.
Qed.
Lemma run_node_fail : forall A (f : xm (list T) A) l k j, (j <= cost)%nat -> plenty ok k (k + j)%nat -> ok (k + j)%nat = false ->
  (xevent ok ;~ xevents ok cost ;~ f) l k = (XErr (XFail (k + j)), l, S (k + j)).
Proof.
  intros A f l k j J P F. unfold xbind at 1, xevent. destruct j as [|j].
  - rewrite Nat.add_0_r in *. rewrite F. reflexivity.
  - rewrite (P k) by lia. replace (k + S j)%nat with (S k + j)%nat in * by lia. unfold xbind. rewrite (run_events_fail ok cost j); [reflexivity|lia| |exact F].
    intros i H. apply P. lia.
Qed.
Lemma range_length : forall xs l : list T, (length l <= length (std_insert_range lt xs l))%nat.
Proof.
  unfold std_insert_range. induction xs as [|x xs IH]; intros l; cbn [fold_left]; [lia|]. specialize (IH (snd (std_insert lt x l))). pose proof (insert_length x l). lia.
Qed.
Lemma run_range_fail : forall pre x post l k j, fst (std_insert lt x (std_insert_range lt pre l)) = true -> (j <= cost)%nat ->
  forall n, n = (k + S cost * (length (std_insert_range lt pre l) - length l) + j)%nat -> plenty ok k n -> ok n = false ->
  fs_insert_range ok cost lt (pre ++ x :: post) l k = (XErr (XFail n), std_insert_range lt pre l, S n).
Proof.
  induction pre as [|y pre IH]; intros x post l k j X J n En P F.
  - cbn [app fs_insert_range]. change (std_insert_range lt [] l) with l in *. unfold xbind at 1. unfold fs_insert. unfold xbind at 1, xget.
    destruct (std_insert lt x l) as [b l'] eqn:I. cbn [fst] in X. subst b.
    replace n with (k + j)%nat in * by nia. rewrite (run_node_fail _ _ l k j J P F). reflexivity.
  - change (std_insert_range lt (y :: pre) l) with (std_insert_range lt pre (snd (std_insert lt y l))) in *.
    pose proof (insert_length y l) as L. pose proof (range_length pre (snd (std_insert lt y l))) as R. pose proof (insert_not lt y l) as NI.
    cbn [app fs_insert_range]. unfold xbind at 1. unfold fs_insert. unfold xbind at 1, xget.
    destruct (std_insert lt y l) as [[|] l'] eqn:I; cbn [fst snd] in *.
    + rewrite run_node_ok by (intros i H; apply P; nia). unfold xbind at 1, xput, xret. apply (IH x post l' (k + S cost)%nat j X J); [nia| |exact F].
      intros i H. apply P. lia.
    + specialize (NI eq_refl). subst l'. unfold xret. apply (IH x post l k j X J); [exact En|exact P|exact F].
Qed.
Lemma run_clone_fail : forall (w : list T) n l k j, (j < cost * length w + (length w - n))%nat -> plenty ok k (k + j)%nat -> ok (k + j)%nat = false ->
  fs_clone ok cost w n l k = (XErr (XFail (k + j)), l, S (k + j)).
Proof.
  induction w as [|x w IH]; intros n l k j J P F; cbn [length] in J; [lia|]. cbn [fs_clone]. destruct n as [|n].
  - destruct (Nat.le_gt_cases j cost) as [C|C]; [apply run_node_fail; assumption|].
    rewrite run_node_ok by (intros i H; apply P; lia). replace (k + j)%nat with (k + S cost + (j - S cost))%nat in * by lia.
    apply IH; [nia| |exact F]. intros i H. apply P. lia.
  - unfold xbind. destruct (Nat.lt_ge_cases j cost) as [C|C].
    + rewrite (run_events_fail ok cost j) by assumption. reflexivity.
    + rewrite run_events_ok by (intros i H; apply P; lia). replace (k + j)%nat with (k + cost + (j - cost))%nat in * by lia.
      apply IH; [nia| |exact F]. intros i H. apply P. lia.
Qed.

Theorem tpop_stopped : forall v s k j x a, s v = x :: a -> Z.of_nat (length (s v)) <= INT_MAX -> (j < cost)%nat ->
  plenty ok k (k + j)%nat -> ok (k + j)%nat = false ->
  step (TPop v) s k = Ok (tset s v a, S (k + j), [Failed (k + j)]).
Proof.
  intros v s k j x a E L J P F. cbn [fsstep]. unfold on_object, fs_pop. unfold xbind at 1, xget. unfold xbind at 1, xlift.
  rewrite size_ok by exact L. rewrite E. unfold check_empty. rewrite len_cons.
  assert (0 <= len a) by (unfold len; lia). destruct (Z.eqb_spec (1 + len a) 0) as [X|X]; [lia|].
  unfold xbind, xput. rewrite (run_events_fail ok cost j) by assumption. reflexivity.
Qed.
Theorem tcopy_stopped : forall v w s k j, v <> w -> (j < cost * length (s w) + (length (s w) - length (s v)))%nat ->
  plenty ok k (k + j)%nat -> ok (k + j)%nat = false ->
  step (TCopy v w) s k = Ok (tset s v [], S (k + j), [Failed (k + j)]).
Proof.
  intros v w s k j N J P F. cbn [fsstep]. apply Nat.eqb_neq in N. rewrite N. unfold on_object, fs_assign.
  unfold xbind at 1, xget. unfold xbind at 1, xput. unfold xbind at 1. rewrite (run_clone_fail (s w) (length (s v)) [] k j J P F). reflexivity.
Qed.
(** The events before that of the new element [x]: those of the new elements among [pre]. *)
Theorem textend_stopped : strict_total lt -> forall v pre x post s e k j n, stands lt s e -> Z.of_nat (length (s v) + length (pre ++ x :: post)) <= INT_MAX ->
  ~ e v x -> ~ In x pre -> card (either (e v) (fun y => In y pre)) (Z.of_nat (length (s v) + n)) -> (j <= cost)%nat ->
  plenty ok k (k + S cost * n + j)%nat -> ok (k + S cost * n + j)%nat = false ->
  exists s', step (TExtend v (pre ++ x :: post)) s k = Ok (s', S (k + S cost * n + j), [Failed (k + S cost * n + j)]) /\
             stands lt s' (zset e v (either (e v) (fun y => In y pre))).
Proof.
  intros O v pre x post s e k j n ST L NX NP C J P F.
  assert (SE : enumerates lt (s v) (e v)) by apply ST. assert (SL : len (s v) <= INT_MAX) by apply ST.
  pose proof (range_enum lt O pre _ _ SE) as RE. destruct SE as (IV & EV). destruct (insert_range_ok lt O pre (s v) IV) as (IR & ER & LR).
  pose proof (enum_len lt O _ _ _ RE C) as CN. unfold len in CN.
  assert (X : fst (std_insert lt x (std_insert_range lt pre (s v))) = true).
  { destruct (insert_ok lt O x _ IR) as (_ & _ & FX & _). apply FX. rewrite ER. intros [Y|Y]; [apply NX, EV, Y|exact (NP Y)]. }
  assert (EQ : (k + S cost * n + j = k + S cost * (length (std_insert_range lt pre (s v)) - length (s v)) + j)%nat).
  { replace (length (std_insert_range lt pre (s v)) - length (s v))%nat with n by lia. reflexivity. }
  exists (tset s v (std_insert_range lt pre (s v))). split.
  - cbn [fsstep]. unfold fs_guard. rewrite size_ok by exact SL. destruct (Z.leb_spec (len (pre ++ x :: post)) (INT_MAX - len (s v))) as [_|B]; [|unfold len in *; lia].
    unfold on_object, fs_extend. rewrite (run_range_fail pre x post (s v) k j X J _ EQ P F). reflexivity.
  - intros u. unfold tset, zset. destruct (Nat.eqb u v); [|apply ST]. split; [exact RE|].
    rewrite app_length in L. unfold len in LR. lia.
Qed.
End Counts.

(** ** Witnesses *)
Lemma tpop_witness : exists (ok : nat -> bool) (s : tstore Z) s' k' n,
  fsstep ok 1 Z.ltb Z.eqb (fun _ => []) (TPop 0%nat) s 0%nat = Ok (s', k', [Failed n]) /\ s 0%nat = [1; 2; 3] /\ s' 0%nat = [2; 3].
Proof. exists (fun _ => false), (fun _ => [1; 2; 3]). do 3 eexists. split; [reflexivity|]. split; reflexivity. Qed.
Lemma tcopy_witness : exists (ok : nat -> bool) (s : tstore Z) s' k' n,
  fsstep ok 1 Z.ltb Z.eqb (fun _ => []) (TCopy 0%nat 1%nat) s 0%nat = Ok (s', k', [Failed n]) /\ s 0%nat = [1; 2; 3] /\ s 1%nat = [4] /\ s' 0%nat = [].
Proof.
  exists (fun _ => false), (fun v => match v with O => [1; 2; 3] | _ => [4] end). do 3 eexists. split; [reflexivity|]. split; [reflexivity|]. split; reflexivity.
Qed.
Lemma textend_witness : exists (ok : nat -> bool) (s : tstore Z) s' k' n,
  fsstep ok 1 Z.ltb Z.eqb (fun _ => []) (TExtend 0%nat [5; 4]) s 0%nat = Ok (s', k', [Failed n]) /\ s 0%nat = [1] /\ s' 0%nat = [1; 5].
Proof. exists (fun k => Nat.ltb k 2), (fun _ => [1]). do 3 eexists. split; [reflexivity|]. split; reflexivity. Qed.
