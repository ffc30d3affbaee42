(** Strs when memory may run out: numbers of allocations, witnesses. *)
From Coq Require Import ZArith List Bool Ascii Lia.
From Verif Require Import IntMemSpec Outcome IntModel ListModel StrModel Show ListSpec ListFacts StrFacts StrMore StrSpec StrProgModel StrProgSpec.
From Verif Require Import FailModel FailRunModel FailRunSpec FailCost StrFailModel StrFailSpec StrFail.
Import ListNotations.
Local Open Scope nat_scope.

Lemma at_middle : forall T (d r : list T) x, (Z.of_nat (length (d ++ x :: r)) <= INT_MAX)%Z -> list_at (d ++ x :: r) (Z.of_nat (length d)) = Ok x.
Proof.
  intros T d r x L. change (len (d ++ x :: r) <= INT_MAX)%Z in L. change (Z.of_nat (length d)) with (len d).
  pose proof (len_nonneg _ d). rewrite len_app, len_cons in L. pose proof (len_nonneg _ r).
  unfold list_at. rewrite neg_size, size_ok by (rewrite len_app, len_cons; lia). cbn [bind].
  rewrite check_bounds_ok by (rewrite len_app, len_cons; lia). cbn [bind]. rewrite from_end_ok by (rewrite len_app, len_cons; lia).
  unfold from_back. destruct (Z.ltb_spec (len d) 0); [lia|]. cbn [bind]. apply vat_ok.
Qed.

Section Counts.
Variables (ok : nat -> bool) (grow : nat -> nat -> nat).
Context {St : Type}.
Notation calm := (calm StrProgModel.XThrow).

Lemma kwp_alloc : forall n (s : St) k (Q : nat -> unit -> St -> Prop), Q (k + long n) tt s -> kwp (s_alloc ok n) s k Q.
Proof.
  intros n s k Q H. unfold s_alloc, long, LOCAL in *. destruct (Nat.leb n 15).
  - apply kwp_ret. rewrite Nat.add_0_r in H. exact H.
  - apply kwp_event. rewrite Nat.add_1_r in H. exact H.
Qed.
Lemma kwp_new : forall t (s : St) k (Q : nat -> xstr -> St -> Prop), (Q (k + long (length t)) (Xstr t (Nat.max LOCAL (length t))) s) -> kwp (s_new ok t) s k Q.
Proof. intros t s k Q H. unfold s_new. apply kwp_bind, kwp_alloc, kwp_ret, H. Qed.
Lemma kwp_append : forall b t (s : St) k (Q : nat -> xstr -> St -> Prop),
  (forall k' r, xchars r = xchars b ++ t ->
     (forall lens, growths (xroom b) (length (xchars b)) (length t :: lens) + k = growths (xroom r) (length (xchars r)) lens + k') -> Q k' r s) ->
  kwp (s_append ok b t) s k Q.
Proof.
  intros b t s k Q H. unfold s_append. rewrite app_length. destruct (Nat.leb _ _) eqn:E.
  - apply kwp_ret, H; [reflexivity|]. intros lens. cbn [growths xroom xchars]. rewrite E, app_length. reflexivity.
  - apply kwp_bind, kwp_event, kwp_ret, H; [reflexivity|]. intros lens. cbn [growths xroom xchars]. rewrite E, app_length. lia.
Qed.
Lemma kwp_concat : forall x t (s : St) k (Q : nat -> xstr -> St -> Prop),
  (forall r, xchars r = x ++ t -> Q (k + long (length x + length t)) r s) -> kwp (s_concat ok x t) s k Q.
Proof. intros x t s k Q H. unfold s_concat. apply kwp_bind, kwp_alloc, kwp_ret. rewrite app_length. apply H. reflexivity. Qed.

Lemma kwp_slice : forall v stop step f i b (s : St) k (Q : nat -> xstr -> St -> Prop),
  (forall k' r, length (xchars b) <= length (xchars r) ->
     k' = k + growths (xroom b) (length (xchars b)) (repeat 1 (length (xchars r) - length (xchars b))) -> Q k' r s) ->
  kwp (fs_slice_loop ok v stop step f i b) s k Q.
Proof.
  intros v stop step. induction f as [|f IH]; intros i b s k Q H; cbn [fs_slice_loop].
  - apply kwp_lift. discriminate.
  - destruct (if (0 <? step)%Z then _ else _).
    2:{ apply kwp_ret, H; [lia|]. rewrite Nat.sub_diag. cbn. lia. }
    apply kwp_bind, kwp_lift. intros x _. apply kwp_bind, kwp_append. intros k1 b1 E1 G1. apply kwp_bind, kwp_lift. intros j _.
    apply IH. intros k2 r L2 ->. assert (L1 : length (xchars b1) = S (length (xchars b))) by (rewrite E1, app_length; cbn; lia).
    apply H; [lia|]. replace (length (xchars r) - length (xchars b)) with (S (length (xchars r) - length (xchars b1))) by lia.
    specialize (G1 (repeat 1 (length (xchars r) - length (xchars b1)))). cbn [repeat]. cbn [length] in G1. lia.
Qed.
Lemma kwp_join : forall sep rest l pre b (s : St) k (Q : nat -> xstr -> St -> Prop),
  l = pre ++ rest -> (Z.of_nat (length l) <= INT_MAX)%Z ->
  (forall k' r, k' = k + fold_right (fun y a => long (length sep + length y) + a) 0 rest +
                     growths (xroom b) (length (xchars b)) (map (fun y => length sep + length y) rest) -> Q k' r s) ->
  kwp (fs_join_loop ok sep l (length rest) (Z.of_nat (length pre)) b) s k Q.
Proof.
  intros sep. induction rest as [|x rest IH]; intros l pre b s k Q E L H; cbn [length fs_join_loop].
  - apply kwp_ret, H. cbn. lia.
  - apply kwp_bind, kwp_lift. intros y Ey.
    assert (y = x) as ->.
    { subst l. rewrite at_middle in Ey by exact L. congruence. }
    apply kwp_bind, kwp_concat. intros t Et. apply kwp_bind, kwp_append. intros k1 b1 E1 G1.
    replace (Z.of_nat (length pre) + 1)%Z with (Z.of_nat (length (pre ++ [x]))) by (rewrite app_length; cbn; lia).
    apply IH; [rewrite <- app_assoc; exact E|exact L|]. intros k2 r ->. apply H. cbn [fold_right map].
    specialize (G1 (map (fun y => length sep + length y) rest)). rewrite Et, app_length in G1. lia.
Qed.
Lemma kwp_copies : forall l (s : St) k (Q : nat -> unit -> St -> Prop), Q (k + fold_right (fun y a => long (length y) + a) 0 l) tt s -> kwp (s_copies ok l) s k Q.
Proof.
  induction l as [|t l IH]; intros s k Q H; cbn [s_copies fold_right] in *.
  - apply kwp_ret. rewrite Nat.add_0_r in H. exact H.
  - apply kwp_bind, kwp_alloc, IH. rewrite <- Nat.add_assoc. exact H.
Qed.

(** The members *)
Lemma kwp_shl : forall t n (s : St) k (Q : nat -> xstr -> St -> Prop), (len t <= INT_MAX)%Z ->
  (forall r, Q (k + (if (n =? 0)%Z then long (length (xchars r)) else 2 * long (length (xchars r)))) r s) -> kwp (fs_shl ok t n) s k Q.
Proof.
  intros t n s k Q L H. unfold fs_shl. rewrite size_ok by exact L. destruct (len t <=? 1)%Z eqn:E1; cbn [orb].
  - apply kwp_new. specialize (H (Xstr t (Nat.max LOCAL (length t)))). cbn [xchars] in H.
    assert (Z : long (length t) = 0). { unfold long. apply Z.leb_le in E1. unfold len in E1. destruct (Nat.leb_spec (length t) 15); [reflexivity|lia]. }
    rewrite Z in *. replace (if (n =? 0)%Z then 0 else 2 * 0) with 0 in H by (destruct (n =? 0)%Z; reflexivity). exact H.
  - destruct (n =? 0)%Z eqn:E2.
    + apply kwp_new. apply (H (Xstr t (Nat.max LOCAL (length t)))).
    + apply kwp_bind, kwp_lift. intros m _. destruct (Z.ltb_spec (len t) 0); [apply kwp_lift; discriminate|].
      apply kwp_bind, kwp_alloc, kwp_bind, kwp_lift. intros r Er. apply kwp_new. specialize (H (Xstr r (Nat.max LOCAL (length r)))). cbn [xchars] in H.
      assert (LR : length r = length t).
      { unfold into_buffer, std_rotate in Er. rewrite size_ok in Er by exact L. rewrite Z.eqb_refl in Er. destruct (Z.ltb_spec (len t) 0); [lia|].
        destruct (_ || _)%bool eqn:B; [discriminate|]. injection Er as <-. rewrite app_length, Nat.add_comm, <- app_length, firstn_skipn. reflexivity. }
      replace (Z.to_nat (len t)) with (length t) by (unfold len; lia). rewrite LR in *. replace (k + long (length t) + long (length t)) with (k + 2 * long (length t)) by lia. exact H.
Qed.
Lemma kwp_shr : forall t n (s : St) k (Q : nat -> xstr -> St -> Prop), (len t <= INT_MAX)%Z ->
  (forall r, Q (k + (if (n =? 0)%Z || (n =? Z.of_nat (length t))%Z then long (length (xchars r)) else 2 * long (length (xchars r)))) r s) -> kwp (fs_shr ok t n) s k Q.
Proof.
  intros t n s k Q L H. unfold fs_shr. rewrite size_ok by exact L. destruct (len t <=? 1)%Z eqn:E1; cbn [orb].
  - apply kwp_new. specialize (H (Xstr t (Nat.max LOCAL (length t)))). cbn [xchars] in H.
    assert (Z : long (length t) = 0). { unfold long. apply Z.leb_le in E1. unfold len in E1. destruct (Nat.leb_spec (length t) 15); [reflexivity|lia]. }
    rewrite Z in *. destruct (_ || _)%bool; exact H.
  - destruct (Z.eqb_spec n 0) as [->|N0].
    + apply kwp_new. apply (H (Xstr t (Nat.max LOCAL (length t)))).
    + cbn [orb] in H. change (Z.of_nat (length t)) with (len t) in H. destruct (Z.ltb_spec n 0); apply kwp_bind, kwp_lift; intros m Em; apply kwp_shl; auto; intros r; specialize (H r);
        unfold chk32 in Em; destruct (in_int _) in Em; try discriminate; injection Em as <-.
      * apply Z.leb_gt in E1. destruct (Z.eqb_spec n (len t)); [lia|]. destruct (Z.eqb_spec (- n) 0); [lia|]. exact H.
      * destruct (Z.eqb_spec n (len t)); destruct (Z.eqb_spec (len t - n) 0); try lia; exact H.
Qed.
Lemma kwp_times : forall t n (s : St) k (Q : nat -> xstr -> St -> Prop), (len t <= INT_MAX)%Z ->
  (forall r, Q (k + 2 * long (length (xchars r))) r s) -> kwp (fs_times ok t n) s k Q.
Proof.
  intros t n s k Q L H. pose proof (str_times_spec t n L) as (_ & P2 & P3). unfold str_times in P2, P3. unfold fs_times.
  destruct (Z.ltb_spec n 0) as [N|N]; [apply kwp_lift; discriminate|].
  apply kwp_bind, kwp_lift. intros m Em. rewrite size_ok in * by exact L. rewrite Em in P2, P3. cbn [bind] in P2, P3.
  destruct (Z_le_gt_dec (len t * n) INT_MAX) as [B|B]; [specialize (P2 N B); clear P3|specialize (P3 N ltac:(lia)); destruct (m <? 0)%Z; [discriminate|]].
  - destruct (Z.ltb_spec m 0); [discriminate|]. apply kwp_bind, kwp_new. cbn [xchars]. rewrite repeat_length. apply kwp_bind, kwp_lift. intros r Er.
    rewrite P2 in Er. injection Er as Er. apply kwp_new. specialize (H (Xstr r (Nat.max LOCAL (length r)))). cbn [xchars] in H.
    assert (LR : length r = Z.to_nat m).
    { unfold chk32 in Em. destruct (in_int _) in Em; [|discriminate]. injection Em as <-. rewrite <- Er.
      transitivity (Z.to_nat n * length t); [|unfold len in *; nia].
      clear. induction (Z.to_nat n) as [|j IH]; [reflexivity|]. cbn [repeat concat]. rewrite app_length, IH. lia. }
    rewrite LR in *. replace (k + long (Z.to_nat m) + long (Z.to_nat m)) with (k + 2 * long (Z.to_nat m)) by lia. exact H.
  - apply kwp_bind, kwp_new. cbn [xchars]. apply kwp_bind, kwp_lift. intros r Er. rewrite P3 in Er. discriminate.
Qed.
Lemma kwp_push : forall l x (s : St) k (Q : nat -> rvec (list ascii) -> St -> Prop),
  (forall r, Q (k + (long (length x) + (if Nat.ltb (length (relems l)) (rroom l) then 0 else 1 + fold_right (fun y a => long (length y) + a) 0 (relems l)))) r s) ->
  kwp (fs_push ok grow l x) s k Q.
Proof.
  intros l x s k Q H. unfold fs_push. apply kwp_bind, kwp_lift. intros _ _. destruct (Nat.ltb _ _).
  - apply kwp_bind, kwp_alloc, kwp_ret. rewrite Nat.add_0_r in H. apply H.
  - apply kwp_bind, kwp_event, kwp_bind, kwp_alloc, kwp_bind, kwp_copies, kwp_ret.
    match goal with |- Q ?a ?b ?c => match type of (H b) with Q ?a' _ _ => replace a with a' by lia end end. apply H.
Qed.
End Counts.

Section Statements.
Variables (ok : nat -> bool) (grow : nat -> nat -> nat) (p : const_policy) (q : policy).
Notation calm := (calm StrProgModel.XThrow).

Lemma stop_calm : forall s k f s' k' ev, fxstop s k f = Ok (s', k', ev) -> calm ev -> False.
Proof.
  intros s k f s' k' ev E N. destruct f; cbn [fxstop] in E; try discriminate; injection E as <- <- <-.
  - exact (N _ (or_introl eq_refl)).
  - exact (N _ (or_introl eq_refl) e eq_refl).
Qed.
Lemma let_counts : forall s u k m s' k' ev Q, kwp m tt k (fun n x _ => Q n x) -> fxlet s u k m = Ok (s', k', ev) -> calm ev -> Q k' (fstrs s' u).
Proof.
  intros s u k m s' k' ev Q W E N. unfold fxlet in E. unfold kwp in W. destruct (m tt k) as [[[x|f] t] k2].
  - injection E as <- <- <-. cbn. rewrite Nat.eqb_refl. exact W.
  - destruct (stop_calm _ _ _ _ _ _ E N).
Qed.
Lemma row_counts : forall s l k m s' k' ev (Q : nat -> Prop), kwp m tt k (fun n x _ => Q n) -> fxrow s l k m = Ok (s', k', ev) -> calm ev -> Q k'.
Proof.
  intros s l k m s' k' ev Q W E N. unfold fxrow in E. unfold kwp in W. destruct (m tt k) as [[[x|f] t] k2].
  - injection E as <- <- <-. exact W.
  - destruct (stop_calm _ _ _ _ _ _ E N).
Qed.

Theorem xcounted : forall c s k s' k' ev, StrProgSpec.short (ftexts s) -> counted c <> None ->
  fxstep ok grow p q c s k = Ok (s', k', ev) -> calm ev -> k' = k + xevent_count c s (made c s').
Proof.
  intros c s k s' k' ev Sh C E N.
  assert (SV : forall v, (len (xchars (fstrs s v)) <= INT_MAX)%Z). { intros v. pose proof (proj1 Sh v) as X. cbn [ftexts strs] in X. unfold len. lia. }
  assert (LET : forall u m, fxlet s u k m = Ok (s', k', ev) ->
    (forall Q : nat -> xstr -> Prop, (forall x, Q (k + xevent_count c s (length (xchars x))) x) -> kwp m tt k (fun n x _ => Q n x)) ->
    k' = k + xevent_count c s (length (xchars (fstrs s' u)))).
  { intros u m F W. refine (let_counts s u k m s' k' ev (fun n x => n = k + xevent_count c s (length (xchars x))) _ F N). apply W. reflexivity. }
  assert (EV : xeventless c -> k' = k + 0). { intros X. rewrite (eventless_count ok grow _ _ _ _ _ _ _ _ X E). lia. }
  destruct c; cbn [counted] in C; try congruence; cbn [made counted xevent_count]; try (apply EV; exact Logic.I); cbn [fxstep] in E; cbn [xevent_count] in LET.
  - apply (LET _ _ E). intros Q H. apply kwp_new, (H (Xstr _ _)).
  - apply (LET _ _ E). intros Q H. apply kwp_new, (H (Xstr _ _)).
  - apply (LET _ _ E). intros Q H. apply kwp_new, (H (Xstr _ _)).
  - destruct p; cbn [const_write bind] in E; [discriminate|]. destruct (Nat.eqb u v); [injection E as <- <- <-; lia|].
    unfold fxon, s_assign, xbind, xget in E. destruct (Nat.leb _ _); [unfold xput in E; injection E as <- <- <-; lia|].
    unfold FailModel.xevent in E. destruct (ok k); [unfold xput in E; injection E as <- <- <-; lia|]. destruct (stop_calm _ _ _ _ _ _ E N).
  - apply (LET _ _ E). intros Q H. apply kwp_bind, kwp_concat. intros x Ex. apply kwp_new. specialize (H (Xstr (xchars x) (Nat.max LOCAL (length (xchars x))))). cbn [xchars] in H.
    rewrite Ex, app_length in *. cbn [length] in *. replace (k + long (length (xchars (fstrs s v)) + 1) + long (length (xchars (fstrs s v)) + 1)) with (k + 2 * long (length (xchars (fstrs s v)) + 1)) by lia. exact H.
  - apply (LET _ _ E). intros Q H. apply kwp_bind, kwp_concat. intros x Ex. apply kwp_new. specialize (H (Xstr (xchars x) (Nat.max LOCAL (length (xchars x))))). cbn [xchars] in H.
    rewrite Ex, app_length in *.
    match goal with |- Q ?a _ => match type of H with Q ?b _ => replace a with b by lia end end. exact H.
  - apply (LET _ _ E). intros Q H. apply kwp_times; auto.
  - apply (LET _ _ E). intros Q H. apply kwp_shl; auto.
  - apply (LET _ _ E). intros Q H. apply kwp_shr; auto.
  - apply (LET _ _ E). intros Q H. unfold fs_reverse. rewrite size_ok by auto. destruct (_ <? 0)%Z; [apply kwp_lift; discriminate|].
    apply kwp_bind, kwp_alloc, kwp_bind, kwp_lift. intros r Er. unfold str_reverse, into_buffer in Er. rewrite size_ok, Z.eqb_refl in Er by auto.
    destruct (_ <? 0)%Z; [discriminate|]. injection Er as <-. apply kwp_new. specialize (H (Xstr (rev (xchars (fstrs s v))) (Nat.max LOCAL (length (rev (xchars (fstrs s v))))))). cbn [xchars] in H.
    rewrite rev_length in *. replace (Z.to_nat (len (xchars (fstrs s v)))) with (length (xchars (fstrs s v))) by (unfold len; lia).
    match goal with |- Q ?a _ => match type of H with Q ?b _ => replace a with b by lia end end. exact H.
  - apply (LET _ _ E). intros Q H. apply kwp_bind, kwp_new, kwp_new. cbn [xchars]. specialize (H (Xstr (str_lower (xchars (fstrs s v))) (Nat.max LOCAL (length (str_lower (xchars (fstrs s v))))))). cbn [xchars] in H.
    unfold str_lower in *. rewrite map_length in *. match goal with |- Q ?a _ => match type of H with Q ?b _ => replace a with b by lia end end. exact H.
  - apply (LET _ _ E). intros Q H. apply kwp_bind, kwp_new, kwp_new. cbn [xchars]. specialize (H (Xstr (str_upper (xchars (fstrs s v))) (Nat.max LOCAL (length (str_upper (xchars (fstrs s v))))))). cbn [xchars] in H.
    unfold str_upper in *. rewrite map_length in *. match goal with |- Q ?a _ => match type of H with Q ?b _ => replace a with b by lia end end. exact H.
  - apply (LET _ _ E). intros Q H. unfold fs_erase. do 3 (apply kwp_bind, kwp_lift; intros ? _). apply kwp_bind, kwp_new, kwp_bind, kwp_lift. intros r _. apply kwp_new.
    rewrite <- Nat.add_assoc. apply (H (Xstr r (Nat.max LOCAL (length r)))).
  - apply (LET _ _ E). intros Q H. apply kwp_bind, kwp_new, kwp_bind, kwp_lift. intros r _. apply kwp_new. rewrite <- Nat.add_assoc. apply (H (Xstr r (Nat.max LOCAL (length r)))).
  - apply (LET _ _ E). intros Q H. unfold fs_slice. destruct (st =? 0)%Z; [apply kwp_lift; discriminate|]. do 7 (apply kwp_bind, kwp_lift; intros ? _).
    apply kwp_bind, kwp_slice. cbn [xempty xchars xroom length]. intros k1 r _ ->. rewrite Nat.sub_0_r. apply kwp_new. unfold LOCAL at 1. rewrite <- Nat.add_assoc.
    apply (H (Xstr (xchars r) (Nat.max LOCAL (length (xchars r))))).
  - apply (LET _ _ E). intros Q H. unfold fs_join. pose proof (proj1 (proj2 Sh l)) as LL. cbn [ftexts rows] in LL.
    destruct (relems (frows s l)) as [|x rest] eqn:R; cbn [list_is_empty].
    + apply kwp_ret. specialize (H xempty). rewrite Nat.add_0_r in H. exact H.
    + apply kwp_bind, kwp_lift. intros y Ey.
      assert (y = x) as ->. { pose proof (at_middle _ [] rest x LL) as X. cbn [app length Z.of_nat] in X. congruence. }
      apply kwp_bind, kwp_new, kwp_bind.
      replace (Z.to_nat (size (x :: rest) - 1)) with (length rest) by (rewrite size_ok by exact LL; unfold len; cbn [length]; lia).
      apply (kwp_join ok _ rest (x :: rest) [x]); [reflexivity|exact LL|]. intros k1 r ->. cbn [xroom xchars]. apply kwp_new.
      specialize (H (Xstr (xchars r) (Nat.max LOCAL (length (xchars r))))). cbn [xchars] in H. unfold LOCAL at 1 in H. unfold LOCAL at 1.
      match goal with |- Q ?a _ => match type of H with Q ?b _ => replace a with b by lia end end. exact H.
  - apply (LET _ _ E). intros Q H. apply kwp_bind, kwp_lift. intros r _. apply kwp_new. apply (H (Xstr r (Nat.max LOCAL (length r)))).
  - refine (row_counts s l k _ s' k' ev (fun n => n = _) _ E N). apply kwp_push. reflexivity.
Qed.

(** Texts of at most 15 characters need no memory. *)
Lemma growths_fit : forall lens room size, size + fold_right Nat.add 0 lens <= room -> growths room size lens = 0.
Proof.
  induction lens as [|n lens IH]; intros room size H; cbn [growths fold_right] in *; [reflexivity|].
  destruct (Nat.leb_spec (size + n) room); [apply IH; lia|lia].
Qed.
Lemma long_short : forall n, n <= 15 -> long n = 0.
Proof. intros n H. unfold long. destruct (Nat.leb_spec n 15); [reflexivity|lia]. Qed.
End Statements.

Section Small.
Variables (ok : nat -> bool) (grow : nat -> nat -> nat) (p : const_policy) (q : policy).

Lemma glue_length : forall sep x rest,
  length (glue sep (x :: rest)) = length x + fold_right Nat.add 0 (map (fun y : list ascii => length sep + length y) rest).
Proof.
  intros sep x rest. rewrite glue_concat, app_length. f_equal. induction rest as [|y rest IH]; [reflexivity|].
  cbn [map concat fold_right]. rewrite !app_length, IH. lia.
Qed.
Lemma longs_fit : forall sep rest, fold_right Nat.add 0 (map (fun y : list ascii => sep + length y) rest) <= 15 ->
  fold_right (fun y a => long (sep + length y) + a) 0 rest = 0.
Proof.
  intros sep. induction rest as [|y rest IH]; cbn [map fold_right]; intros H; [reflexivity|]. rewrite IH by lia. rewrite long_short by lia. reflexivity.
Qed.
Lemma repeat_sum : forall n, fold_right Nat.add 0 (repeat 1 n) = n.
Proof. induction n as [|n IH]; cbn; [|rewrite IH]; reflexivity. Qed.

Theorem small_free : forall c u s k s' k' ev, StrProgSpec.short (ftexts s) -> counted c = Some (Some u) ->
  fxstep ok grow p q c s k = Ok (s', k', ev) -> calm StrProgModel.XThrow ev ->
  (forall v, length (strs (ftexts s) v) <= 15) -> length (strs (ftexts s') u) <= 15 -> k' = k.
Proof.
  intros c u s k s' k' ev Sh C E N V R. rewrite (xcounted ok grow p q c s k s' k' ev Sh ltac:(congruence) E N).
  assert (M : made c s' <= 15) by (unfold made; rewrite C; exact R).
  assert (LM : long (made c s') = 0) by (apply long_short; exact M).
  assert (LV : forall v, long (length (xchars (fstrs s v))) = 0) by (intros v; apply long_short, V).
  enough (X : xevent_count c s (made c s') = 0) by lia.
  destruct c; cbn [counted] in C; try discriminate; injection C as ->; cbn [xevent_count]; rewrite ?LM, ?LV; try reflexivity.
  - destruct (_ =? _)%Z; reflexivity.
  - destruct (_ || _)%bool; reflexivity.
  - rewrite growths_fit; [reflexivity|]. rewrite repeat_sum. exact M.
  - destruct (relems (frows s l)) as [|x rest] eqn:El; [reflexivity|].
    assert (G : length (glue (xchars (fstrs s v)) (x :: rest)) <= 15).
    { pose proof (step_ends ok grow p q (XJoin u v l) s k Logic.I) as H. rewrite E in H. cbn [xends xstep] in H.
      destruct H as [(_ & _ & s0 & ev0 & B & A & _)|(n & -> & _)]; [|destruct (N _ (or_introl eq_refl))].
      cbn [ftexts strs rows] in B. rewrite join_spec in B by apply (proj1 (proj2 Sh l)). cbn [xlet] in B. injection B as <- <-.
      rewrite (proj1 A u) in R. cbn [strs set_str] in R. rewrite Nat.eqb_refl, El in R. exact R. }
    rewrite glue_length in G. rewrite longs_fit by lia. rewrite growths_fit by lia. rewrite long_short by lia. reflexivity.
Qed.
End Small.

(** ** Witnesses *)
Lemma bare_short : forall t, (forall v, length (t v) <= 40) -> StrProgSpec.short (ftexts (bare t)).
Proof.
  intros t H. split; cbn [ftexts strs rows bare fstrs frows xchars relems].
  - intros v. specialize (H v). unfold INT_MAX. lia.
  - intros l. split; [unfold INT_MAX; cbn; lia|constructor].
Qed.
Lemma format_silent : forall grow p q,
  exists s', fxstep (fun k => negb (Nat.eqb k 0)) grow p q (XFormat 0 1 [XTextArg sixteen]) (bare (fun _ => ["{"; "}"]%char)) 0 = Ok (s', 1, []) /\
  strs (ftexts s') 0 = firstn 15 sixteen /\
  xstep p q (XFormat 0 1 [XTextArg sixteen]) (ftexts (bare (fun _ => ["{"; "}"]%char))) = Ok (set_str (ftexts (bare (fun _ => ["{"; "}"]%char))) 0 sixteen, []).
Proof. intros grow p q. eexists. split; [vm_compute; reflexivity|]. split; vm_compute; reflexivity. Qed.
Lemma replace_silent : forall grow p q,
  let s := bare (fun v => match v with 1 => sixteen | 3 => ["-"%char] | _ => [] end) in
  exists s', fxstep (fun k => negb (Nat.eqb k 0)) grow p q (XReplace 0 1 2 3) s 0 = Ok (s', 3, []) /\
  length (strs (ftexts s') 0) = 16 /\
  exists t, xstep p q (XReplace 0 1 2 3) (ftexts s) = Ok (set_str (ftexts s) 0 t, []) /\ length t = 33.
Proof. intros grow p q s. eexists. split; [vm_compute; reflexivity|]. split; [vm_compute; reflexivity|]. eexists. split; vm_compute; reflexivity. Qed.

Theorem not_or_throws : ~ (forall ok grow p q c s k s' k' ev, StrProgSpec.short (ftexts s) -> xint c -> fxstep ok grow p q c s k = Ok (s', k', ev) ->
  (exists n, In (Failed n) ev) \/ exists s0 ev0, xstep p q c (ftexts s) = Ok (s0, ev0) /\ agree s0 (ftexts s') /\ ev = map Saw ev0).
Proof.
  intros H. destruct (format_silent (fun n _ => n) ConstBenign Strict) as (s' & E & T & B).
  assert (X : xint (XFormat 0 1 [XTextArg sixteen])) by exact Logic.I.
  destruct (H _ _ _ _ _ _ _ _ _ _ (bare_short (fun _ => ["{"; "}"]%char) ltac:(intros; cbn; lia)) X E) as [(n & [])|(s0 & ev0 & B' & A & _)].
  rewrite B in B'. injection B' as <- _. destruct A as (A & _). specialize (A 0). rewrite T in A. cbn [set_str strs Nat.eqb] in A.
  apply (f_equal (@length _)) in A. discriminate.
Qed.
