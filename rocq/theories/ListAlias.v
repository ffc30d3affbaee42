(** [list /= list[k]]: the exact result when the referenced element is overwritten. *)
From Coq Require Import ZArith List Bool Lia.
From Verif Require Import Outcome ListModel ListSpec ListFacts ListMore.
Import ListNotations.
Open Scope Z_scope.

Section Alias.
Context {T : Type} (eqb : T -> T -> bool).
Notation other x := (filter (fun y => negb (eqb y x))).

Lemma put_step : forall (kept gap todo : list T) y,
  vput (kept ++ gap ++ y :: todo) (len kept) y = Ok ((kept ++ [y]) ++ tl (gap ++ [y]) ++ todo).
Proof.
  intros kept [|g gap] todo y; cbn [app tl]; rewrite vput_ok, <- !app_assoc; auto.
Qed.
Lemma len_tl_app : forall (gap : list T) y, len (tl (gap ++ [y])) = len gap.
Proof. intros [|g gap] y; cbn [app tl]; auto. rewrite len_app, !len_cons, len_nil. lia. Qed.

(** After position [k] has been written, the reference is to the element [y] written there. *)
Lemma second_phase : forall k y todo kept gap, 0 <= k < len kept -> (forall w, vat (kept ++ w) k = Ok y) ->
  std_remove_loop eqb (Elem k) (length todo) (len kept + len gap) (len kept) (kept ++ gap ++ todo) =
  std_remove_loop eqb (Val y) (length todo) (len kept + len gap) (len kept) (kept ++ gap ++ todo).
Proof.
  intros k y. induction todo as [|z todo IH]; intros kept gap K V; cbn [length std_remove_loop]; auto.
  assert (vat (kept ++ gap ++ z :: todo) (len kept + len gap) = Ok z) as ->.
  { rewrite app_assoc, <- len_app. apply vat_ok. }
  cbn [bind deref]. rewrite V. cbn [bind]. destruct (eqb z y) eqn:E.
  - specialize (IH kept (gap ++ [z]) K V). rewrite <- !app_assoc in IH. cbn [app] in IH. rewrite len_app, len_cons, len_nil in IH.
    replace (len kept + len gap + 1) with (len kept + (len gap + (1 + 0))) by lia. exact IH.
  - rewrite put_step. cbn [bind]. specialize (IH (kept ++ [z]) (tl (gap ++ [z]))). rewrite len_tl_app, len_app, len_cons, len_nil in IH.
    replace (len kept + len gap + 1) with (len kept + (1 + 0) + len gap) by lia. replace (len kept + 1) with (len kept + (1 + 0)) by lia.
    apply IH; [lia|]. intros w. rewrite <- app_assoc. apply V.
Qed.

Lemma first_phase : forall x k y q p kept gap, vat (kept ++ gap ++ p ++ y :: q) k = Ok x ->
  len kept + len (other x p) = k -> eqb y x = false ->
  exists gap', std_remove_loop eqb (Elem k) (length (p ++ y :: q)) (len kept + len gap) (len kept) (kept ++ gap ++ p ++ y :: q) =
    let kept' := kept ++ other x p ++ [y] in
    std_remove_loop eqb (Elem k) (length q) (len kept' + len gap') (len kept') (kept' ++ gap' ++ q).
Proof.
  intros x k y q. induction p as [|z p IH]; intros kept gap V L E; cbn [app length filter std_remove_loop].
  - exists (tl (gap ++ [y])). cbv zeta. cbn [app filter] in *.
    assert (vat (kept ++ gap ++ y :: q) (len kept + len gap) = Ok y) as -> by (rewrite app_assoc, <- len_app; apply vat_ok).
    cbn [bind deref]. rewrite V. cbn [bind]. rewrite E, put_step. cbn [bind]. rewrite len_tl_app, len_app, len_cons, len_nil. f_equal; lia.
  - cbn [app filter] in V, L.
    assert (vat (kept ++ gap ++ z :: p ++ y :: q) (len kept + len gap) = Ok z) as -> by (rewrite app_assoc, <- len_app; apply vat_ok).
    cbn [bind deref]. rewrite V. cbn [bind]. destruct (eqb z x) eqn:Z; cbn [negb] in *.
    + destruct (IH kept (gap ++ [z])) as (gap' & R); auto.
      { rewrite <- app_assoc. cbn [app]. auto. }
      exists gap'. rewrite <- R. rewrite <- app_assoc, len_app, len_cons, len_nil. cbn [app]. f_equal; lia.
    + rewrite len_cons in L. pose proof (len_nonneg _ (other x p)). rewrite put_step. cbn [bind].
      destruct (IH (kept ++ [z]) (tl (gap ++ [z]))) as (gap' & R); auto.
      { eapply vput_other; [apply put_step| |exact V]. lia. }
      { rewrite len_app, len_cons, len_nil. lia. }
      exists gap'. cbv zeta in *. rewrite len_tl_app, !len_app, !len_cons, !len_nil in R.
      repeat rewrite ?len_app, ?len_cons, ?len_nil.
      etransitivity; [|etransitivity; [exact R|]]; f_equal; try lia; rewrite <- !app_assoc; auto.
Qed.

Theorem divide_overwritten : forall l k x p y q, l = p ++ y :: q -> nth_error l (Z.to_nat k) = Some x -> 0 <= k ->
  eqb y x = false -> len (other x p) = k ->
  list_divide eqb (Elem k) l = (Ok tt, other x p ++ y :: other y q).
Proof.
  intros l k x p y q -> N K E L. unfold list_divide. rewrite update_eq. unfold std_remove.
  destruct (first_phase x k y q p [] []) as (gap' & R); auto.
  { unfold vat. destruct (Z.ltb_spec k 0); [lia|]. cbn [app]. rewrite N. auto. }
  cbn [app] in R. rewrite !len_nil in R. cbn [Z.add] in R. rewrite R. cbv zeta. clear R.
  rewrite (second_phase k y).
  - destruct (remove_loop_ok T eqb y q (other x p ++ [y]) gap') as (tail & R). rewrite R. cbn [bind fst snd].
    rewrite app_assoc, <- len_app, erase_tail. rewrite <- app_assoc. auto.
  - rewrite len_app, len_cons, len_nil. lia.
  - intros w. rewrite <- app_assoc. cbn [app]. rewrite <- L. apply vat_ok.
Qed.

(** The two cases: too few elements are kept, or there is an element that lands on position [k]. *)
Lemma lands : forall x k l, 0 <= k < len (other x l) ->
  exists p y q, l = p ++ y :: q /\ eqb y x = false /\ len (other x p) = k.
Proof.
  intros x k l. revert k. induction l as [|z l IH]; intros k K; cbn [filter] in K; [rewrite len_nil in K; lia|].
  destruct (eqb z x) eqn:E; cbn [negb] in K.
  - destruct (IH k K) as (p & y & q & -> & Y & L). exists (z :: p), y, q. cbn [filter]. rewrite E. cbn [negb app]. auto.
  - rewrite len_cons in K. destruct (Z.eq_dec k 0) as [->|NZ].
    + exists [], z, l. auto.
    + destruct (IH (k - 1)) as (p & y & q & -> & Y & L); [lia|]. exists (z :: p), y, q. cbn [filter]. rewrite E. cbn [negb app]. rewrite len_cons.
      split; auto. split; auto. lia.
Qed.

Lemma filter_same : forall (f g : T -> bool) l, filter f l = filter g l <-> Forall (fun x => f x = g x) l.
Proof.
  intros f g l. split.
  - induction l as [|x l IH]; intros E; constructor; cbn [filter] in E.
    + destruct (f x) eqn:F, (g x) eqn:G; auto; exfalso.
      * assert (In x (filter g l)) as I by (rewrite <- E; left; auto). apply filter_In in I. destruct I. congruence.
      * assert (In x (filter f l)) as I by (rewrite E; left; auto). apply filter_In in I. destruct I. congruence.
    + destruct (f x) eqn:F, (g x) eqn:G; try (inversion E; auto); auto.
      * assert (In x (filter g l)) as I by (rewrite <- E; left; auto). apply filter_In in I. destruct I. congruence.
      * assert (In x (filter f l)) as I by (rewrite E; left; auto). apply filter_In in I. destruct I. congruence.
  - induction 1 as [|x l E _ IH]; auto. cbn [filter]. rewrite E, IH. auto.
Qed.

(** Right exactly when neither the removed value nor the one that lands on its place occurs behind that one. *)
Theorem divide_right : forall l k x, decides eqb -> nth_error l (Z.to_nat k) = Some x -> 0 <= k ->
  list_divide eqb (Elem k) l = (Ok tt, other x l) <->
  (forall p y q, l = p ++ y :: q -> y <> x -> len (other x p) = k -> ~ In x q /\ ~ In y q).
Proof.
  intros l k x D N K. assert (forall a b, eqb a b = false <-> a <> b) as ND.
  { intros a b. destruct (D a b) as (D1 & D2). destruct (eqb a b); split; intros H; auto; try discriminate. exfalso. auto. intros ->. discriminate D2; auto. }
  split.
  - intros R p y q E Y L. rewrite (divide_overwritten l k x p y q E N K (proj2 (ND _ _) Y) L) in R.
    subst l. rewrite filter_app in R. cbn [filter] in R. rewrite (proj2 (ND _ _) Y) in R. cbn [negb] in R. inversion R as [R']. clear R.
    apply app_inv_head in R'. inversion R' as [R]. clear R'. apply filter_same in R. rewrite Forall_forall in R.
    split; intros I; specialize (R _ I); cbn beta in R.
    + rewrite (proj2 (D x x)), (proj2 (ND x y)) in R by auto. discriminate.
    + rewrite (proj2 (D y y)), (proj2 (ND y x)) in R by auto. discriminate.
  - intros R. destruct (Z.le_gt_cases (len (other x l)) k) as [B|B].
    + apply divide_alias; auto.
    + destruct (lands x k l) as (p & y & q & E & Y & L); [lia|]. rewrite (divide_overwritten l k x p y q E N K Y L).
      destruct (R p y q E (proj1 (ND _ _) Y) L) as (X1 & X2). f_equal. subst l. rewrite filter_app. cbn [filter]. rewrite Y. cbn [negb].
      f_equal. f_equal. apply filter_same, Forall_forall. intros z I. f_equal.
      transitivity false; [|symmetry]; apply ND; congruence.
Qed.
End Alias.
