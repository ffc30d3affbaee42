(** Strs when memory may run out: proofs. *)
From Coq Require Import ZArith List Bool Ascii Lia.
From Verif Require Import IntMemModel IntMemSpec IntMem Outcome IntModel ListModel StrModel Show StrSpec StrProgModel StrProgSpec StrProg.
From Verif Require Import FailModel FailFacts FailRunModel FailRunSpec FailRun StrFailModel StrFailSpec.
Import ListNotations.
Local Open Scope nat_scope.

(** ** Computations on Int stop at the first allocation that fails *)
Section First.
Variables (ok : nat -> bool) (grow : nat -> nat -> nat) (p : policy).

Definition stops_at {A} (k : nat) (r : mres A) (k' : nat) : Prop :=
  match r with
  | MFail FBadAlloc => exists n, k' = S n /\ k <= n /\ ok n = false /\ plenty ok k n
  | _ => k <= k' /\ plenty ok k k'
  end.
Definition first {A} (m : am A) : Prop := forall k, stops_at k (fst (m k)) (snd (m k)).
Definition ofirst {A} (m : om A) : Prop := forall x k, stops_at k (fst (m (x, k))) (snd (snd (m (x, k)))).

Lemma stops_seq : forall A k k1 k2 (r : mres A), k <= k1 -> plenty ok k k1 -> stops_at k1 r k2 -> stops_at k r k2.
Proof.
  intros A k k1 k2 r L P H. unfold stops_at in *. destruct r as [a|[|e|u|]];
    try (destruct H as (L2 & P2); split; [lia|eapply plenty_app; eauto]).
  destruct H as (n & E & L2 & F & P2). exists n. repeat split; auto; [lia|eapply plenty_app; eauto].
Qed.
Lemma first_ret : forall A (a : A), first (aret a).
Proof. intros A a k. cbn. split; [lia|apply plenty_nil]. Qed.
Lemma first_lift : forall A (o : outcome A), first (alift o).
Proof. intros A o k. destruct o; cbn; (split; [lia|apply plenty_nil]). Qed.
Lemma first_fail : forall A f, f <> FBadAlloc -> first (afail (A := A) f).
Proof. intros A f N k. destruct f; [congruence| | |]; cbn; (split; [lia|apply plenty_nil]). Qed.
Lemma first_alloc : first (alloc ok).
Proof.
  intros k. unfold alloc. destruct (ok k) eqn:O; cbn.
  - split; [lia|]. intros j Hj. replace j with k by lia. exact O.
  - exists k. repeat split; auto; apply plenty_nil.
Qed.
Lemma first_bind : forall A B (m : am A) (f : A -> am B), first m -> (forall a, first (f a)) -> first (abind m f).
Proof.
  intros A B m f M F k. specialize (M k). unfold abind. destruct (m k) as [[a|[|e|u|]] k'] eqn:E; cbn [fst snd stops_at] in *; auto.
  destruct M as (L & P). eapply stops_seq; eauto. apply F.
Qed.
Lemma ofirst_ret : forall A (a : A), ofirst (oret a).
Proof. intros A a x k. cbn. split; [lia|apply plenty_nil]. Qed.
Lemma ofirst_get : ofirst oget.
Proof. intros x k. cbn. split; [lia|apply plenty_nil]. Qed.
Lemma ofirst_put : forall y, ofirst (oput y).
Proof. intros y x k. cbn. split; [lia|apply plenty_nil]. Qed.
Lemma ofirst_lift : forall A (m : am A), first m -> ofirst (olift m).
Proof. intros A m M x k. specialize (M k). unfold olift. cbn [fst snd]. destruct (m k) as [r k']. exact M. Qed.
Lemma ofirst_bind : forall A B (m : om A) (f : A -> om B), ofirst m -> (forall a, ofirst (f a)) -> ofirst (obind m f).
Proof.
  intros A B m f M F x k. specialize (M x k). unfold obind. destruct (m (x, k)) as [[a|[|e|u|]] [x' k']] eqn:E; cbn [fst snd stops_at] in *; auto.
  destruct M as (L & P). eapply stops_seq; eauto. apply F.
Qed.
Lemma first_local : forall m x, ofirst m -> first (local m x).
Proof. intros m x M k. specialize (M x k). unfold local. destruct (m (x, k)) as [[a|[|e|u|]] [x' k']]; exact M. Qed.

Ltac firsts := repeat first
  [ match goal with |- forall _, _ => intro end | apply first_ret | apply first_lift | apply first_alloc | apply first_fail; discriminate | apply first_bind
  | apply ofirst_ret | apply ofirst_get | apply ofirst_put | apply ofirst_lift | apply ofirst_bind | apply first_local
  | match goal with |- first (if ?b then _ else _) => destruct b | |- ofirst (if ?b then _ else _) => destruct b
                  | |- first (match ?b with _ => _ end) => destruct b | |- ofirst (match ?b with _ => _ end) => destruct b end ].

Lemma new_first : forall l, first (v_new ok l).
Proof. intros l. unfold v_new. firsts. Qed.
Lemma grow_first : forall v l, first (v_grow grow ok v l).
Proof. intros v l. unfold v_grow. firsts. Qed.
Lemma copy_first : forall x, first (m_copy ok x).
Proof. intros x. unfold m_copy. apply first_bind; [apply new_first|]. firsts. Qed.
Lemma neg_first : forall x, first (m_neg ok x).
Proof. intros x. unfold m_neg. apply first_bind; [apply copy_first|]. firsts. Qed.
Lemma push_first : forall f n v, first (m_push_digits grow ok f n v).
Proof.
  induction f as [|f IH]; intros n v; cbn [m_push_digits]; [firsts|]. destruct (n >? 0)%Z; [|firsts].
  apply first_bind; [apply grow_first|]. intros v'. apply IH.
Qed.
Lemma of_int_first : forall n, first (m_of_int grow ok n).
Proof. intros n. unfold m_of_int. apply first_bind; [firsts|]. intros a. apply first_bind; [apply push_first|]. firsts. Qed.
Lemma v_assign_first : forall v l, first (v_assign ok v l).
Proof. intros v l. unfold v_assign. firsts. Qed.
Lemma assign_first : forall x, ofirst (m_assign_copy ok x).
Proof. intros x. unfold m_assign_copy, v_assign. firsts. Qed.
Lemma add_sub_first : forall d b x, ofirst (m_add_sub grow ok p d b x).
Proof.
  induction d as [|d IH]; intros b x; cbn [m_add_sub]; [firsts|].
  apply ofirst_bind; [firsts|]. intros this.
  repeat match goal with |- ofirst (if ?b then _ else _) => destruct b end; firsts;
    try apply neg_first; try apply IH; try apply assign_first; unfold m_assign_move, m_sub_same, m_add_same; firsts; first [apply new_first | apply grow_first | apply v_assign_first].
Qed.
Lemma mul_assign_first : forall x, ofirst (m_mul_assign ok p x).
Proof.
  intros x. unfold m_mul_assign, m_assign_move. firsts; first [apply new_first | apply v_assign_first].
Qed.
Lemma add_first : forall x y, first (m_add grow ok p x y).
Proof. intros x y. unfold m_add, m_bin.
  apply first_bind; [apply copy_first|]. intros c. apply first_bind; [|intros r; apply copy_first].
  apply first_local. unfold m_add_assign. apply add_sub_first.
Qed.
Lemma mul_first : forall x y, first (m_mul ok p x y).
Proof. intros x y. unfold m_mul, m_bin.
  apply first_bind; [apply copy_first|]. intros c. apply first_bind; [|intros r; apply copy_first].
  apply first_local, mul_assign_first.
Qed.
End First.

(** ** Calls that leave the objects alone *)
Section Gives.
Variables (ok : nat -> bool) (grow : nat -> nat -> nat).

(** [m] does what [o] says, up to [P], or stops at the first event that fails. *)
Definition xgives {St A B} (P : A -> B -> Prop) (m : xm St A) (o : outcome B) : Prop :=
  forall s, xwp ok m s (fun a s' => s' = s /\ exists b, o = Ok b /\ P a b) (fun s' => s' = s) (fun x s' => s' = s /\ halts x o).

Context {St : Type}.
Lemma xg_ret : forall A B (P : A -> B -> Prop) a b, P a b -> xgives P (@xret St A a) (Ok b).
Proof. intros A B P a b H s. apply xwp_ret. eauto. Qed.
Lemma xg_bind : forall A B A' B' (P : A -> B -> Prop) (Q : A' -> B' -> Prop) (m : xm St A) o (f : A -> xm St A') (g : B -> outcome B'),
  xgives P m o -> (forall a b, o = Ok b -> P a b -> xgives Q (f a) (g b)) -> xgives Q (xbind m f) (bind o g).
Proof.
  intros A B A' B' P Q m o f g M F s. apply xwp_bind. eapply xwp_mono; [apply M| | |].
  - intros a s' (-> & b & E & H). rewrite E. cbn [bind]. apply F; auto.
  - auto.
  - intros x s' (-> & H). split; auto. destruct x; cbn [halts] in *; rewrite ?H; auto.
Qed.
Lemma xg_pre : forall A B A' B' (P : A -> B -> Prop) (Q : A' -> B' -> Prop) (m : xm St A) b (f : A -> xm St A') o,
  xgives P m (Ok b) -> (forall a, P a b -> xgives Q (f a) o) -> xgives Q (xbind m f) o.
Proof.
  intros A B A' B' P Q m b f o M F. change o with (bind (Ok b) (fun _ : B => o)). eapply xg_bind; [exact M|].
  intros a b' E H. injection E as <-. auto.
Qed.
Lemma xg_lift : forall A (o : outcome A), xgives eq (@xlift St A o) o.
Proof. intros A o s. apply xwp_lift. destruct o; cbn; eauto. Qed.
Lemma xg_mono : forall A B (P P' : A -> B -> Prop) (m : xm St A) o, xgives P m o -> (forall a b, P a b -> P' a b) -> xgives P' m o.
Proof.
  intros A B P P' m o M H s. eapply xwp_mono; [apply M| | |]; auto. intros a s' (-> & b & E & K). eauto.
Qed.
Lemma xg_event : xgives (fun _ (_ : unit) => True) (@FailModel.xevent ok St) (Ok tt).
Proof. intros s. apply xwp_event; eauto. Qed.
Lemma xg_mem : forall A B (P : A -> B -> Prop) (m : am A) o, gives ok P m o -> first ok m -> xgives P (@xmem St A m) o.
Proof.
  intros A B P m o G F s k. specialize (G k). specialize (F k). unfold xmem. destruct (m k) as [[a|[|e|u|]] k']; cbn [fst snd stops_at] in F.
  - destruct G as (L & Pl & b & E & H). repeat split; auto. eauto.
  - destruct F as (n & -> & L & O & Pl). cbn [pred]. repeat split; auto.
  - destruct G as (L & Pl & H). repeat split; auto.
  - destruct G as (L & Pl & H). repeat split; auto.
  - destruct G as (L & Pl & H). repeat split; auto.
Qed.

Definition isstr (x : xstr) (t : list ascii) : Prop := xchars x = t.
Definition istrue {A B} (_ : A) (_ : B) : Prop := True.

Lemma alloc_ok : forall n, xgives istrue (s_alloc ok (St := St) n) (Ok tt).
Proof. intros n. unfold s_alloc. destruct (Nat.leb _ _); [apply xg_ret; exact Logic.I|apply xg_event]. Qed.
Lemma new_ok : forall t, xgives isstr (s_new ok (St := St) t) (Ok t).
Proof. intros t. unfold s_new. eapply xg_pre; [apply alloc_ok|]. intros _ _. apply xg_ret. reflexivity. Qed.
Lemma append_ok : forall b t, xgives isstr (s_append ok (St := St) b t) (Ok (xchars b ++ t)).
Proof.
  intros b t. unfold s_append. destruct (Nat.leb _ _); [apply xg_ret; reflexivity|].
  eapply xg_pre; [apply xg_event|]. intros _ _. apply xg_ret. reflexivity.
Qed.
Lemma concat_ok : forall s t, xgives isstr (s_concat ok (St := St) s t) (Ok (s ++ t)).
Proof. intros s t. unfold s_concat. eapply xg_pre; [apply alloc_ok|]. intros _ _. apply xg_ret. reflexivity. Qed.

(** A computation, then a copy of its result. *)
Lemma lift_new : forall (o : outcome (list ascii)), xgives isstr (r <~ @xlift St _ o ;; s_new ok r) o.
Proof.
  intros o. replace o with (bind o Ok) at 2 by (destruct o; reflexivity).
  eapply xg_bind; [apply xg_lift|]. intros a b _ ->. apply new_ok.
Qed.

Lemma shl_ok : forall s n, xgives isstr (fs_shl ok (St := St) s n) (str_shl s n).
Proof.
  intros s n. unfold fs_shl, str_shl. destruct (_ || _)%bool; [apply new_ok|]. cbv zeta.
  eapply xg_bind; [apply xg_lift|]. intros a b _ ->. destruct (size s <? 0)%Z eqn:N.
  - unfold into_buffer. rewrite N. intros x. apply xwp_lift. cbn. auto.
  - eapply xg_pre; [apply alloc_ok|]. intros _ _. apply lift_new.
Qed.
Lemma shr_ok : forall s n, xgives isstr (fs_shr ok (St := St) s n) (str_shr s n).
Proof.
  intros s n. unfold fs_shr, str_shr. destruct (_ || _)%bool; [apply new_ok|].
  destruct (n <? 0)%Z; (eapply xg_bind; [apply xg_lift|]); intros a b _ ->; apply shl_ok.
Qed.
Lemma reverse_ok : forall s, xgives isstr (fs_reverse ok (St := St) s) (str_reverse s).
Proof.
  intros s. unfold fs_reverse, str_reverse at 2. destruct (size s <? 0)%Z eqn:N.
  - unfold into_buffer. rewrite N. intros x. apply xwp_lift. cbn. auto.
  - eapply xg_pre; [apply alloc_ok|]. intros _ _. apply lift_new.
Qed.
Lemma lower_ok : forall s, xgives isstr (fs_lower ok (St := St) s) (Ok (str_lower s)).
Proof. intros s. unfold fs_lower. eapply xg_pre; [apply new_ok|]. intros b E. rewrite E. apply new_ok. Qed.
Lemma upper_ok : forall s, xgives isstr (fs_upper ok (St := St) s) (Ok (str_upper s)).
Proof. intros s. unfold fs_upper. eapply xg_pre; [apply new_ok|]. intros b E. rewrite E. apply new_ok. Qed.
Lemma erase_ok : forall s a b, xgives isstr (fs_erase ok (St := St) s a b) (str_erase s a b).
Proof.
  intros s a b. unfold fs_erase, str_erase.
  eapply xg_bind; [apply xg_lift|]. intros h ? _ ->. eapply xg_bind; [apply xg_lift|]. intros ? ? _ _. eapply xg_bind; [apply xg_lift|]. intros ? ? _ _.
  eapply xg_pre; [apply new_ok|]. intros x E. rewrite E. apply lift_new.
Qed.
Lemma strip_ok : forall s ch, xgives isstr (fs_strip ok (St := St) s ch) (str_strip s ch).
Proof. intros s ch. unfold fs_strip. eapply xg_pre; [apply new_ok|]. intros x E. rewrite E. apply lift_new. Qed.
Lemma replace_loop_ok : forall s w x f i b, xgives isstr (fs_replace_loop ok (St := St) s w x f i b) (replace_loop s w x f i (xchars b)).
Proof.
  intros s w x. induction f as [|f IH]; intros i b; cbn [fs_replace_loop replace_loop].
  - intros z. apply xwp_lift. cbn. auto.
  - eapply xg_bind; [apply xg_lift|]. intros j ? _ ->. destruct (_ =? -1)%Z.
    + eapply xg_bind; [apply xg_lift|]. intros r ? _ ->. eapply xg_pre; [apply new_ok|]. intros t E. rewrite E.
      eapply xg_pre; [apply append_ok|]. intros b' E'. rewrite E'. apply new_ok.
    + eapply xg_bind; [apply xg_lift|]. intros n ? _ ->. eapply xg_bind; [apply xg_lift|]. intros r ? _ ->.
      eapply xg_pre; [apply new_ok|]. intros t E. eapply xg_pre; [apply append_ok|]. intros t' E'. rewrite E in E'. rewrite E'.
      eapply xg_pre; [apply append_ok|]. intros b' E2. rewrite <- E2. eapply xg_bind; [apply xg_lift|]. intros n' ? _ ->. apply IH.
Qed.
Lemma slice_loop_ok : forall s stop step f i b, xgives isstr (fs_slice_loop ok (St := St) s stop step f i b) (slice_loop s stop step f i (xchars b)).
Proof.
  intros s stop step. induction f as [|f IH]; intros i b; cbn [fs_slice_loop slice_loop].
  - intros z. apply xwp_lift. cbn. auto.
  - destruct (if (0 <? step)%Z then _ else _); [|apply xg_ret; reflexivity].
    eapply xg_bind; [apply xg_lift|]. intros x ? _ ->. eapply xg_pre; [apply append_ok|]. intros b' E. rewrite <- E.
    eapply xg_bind; [apply xg_lift|]. intros j ? _ ->. apply IH.
Qed.
Lemma slice_ok : forall s a b st, xgives isstr (fs_slice ok (St := St) s a b st) (str_slice s a b st).
Proof.
  intros s a b st. unfold fs_slice, str_slice. destruct (st =? 0)%Z; [intros z; apply xwp_lift; cbn; auto|].
  do 7 (eapply xg_bind; [apply xg_lift|]; intros ? ? _ ?; subst).
  match goal with |- xgives _ _ ?o => replace o with (bind o Ok) by (destruct o; reflexivity) end.
  eapply xg_bind; [apply (slice_loop_ok _ _ _ _ _ xempty)|]. intros x t _ E. rewrite E. apply new_ok.
Qed.
Lemma plus_ok : forall s t, xgives isstr (fs_plus ok (St := St) s t) (Ok (s ++ t)).
Proof. intros s t. unfold fs_plus. eapply xg_pre; [apply concat_ok|]. intros b E. rewrite E. apply new_ok. Qed.
Lemma times_ok : forall s n, xgives isstr (fs_times ok (St := St) s n) (str_times s n).
Proof.
  intros s n. unfold fs_times, str_times. destruct (n <? 0)%Z; [intros z; apply xwp_lift; cbn; auto|].
  eapply xg_bind; [apply xg_lift|]. intros m ? _ ->. destruct (_ <? 0)%Z; [intros z; apply xwp_lift; cbn; auto|].
  eapply xg_pre; [apply new_ok|]. intros x E. rewrite E. apply lift_new.
Qed.

Definition isrow (x : rvec (list ascii)) (l : list (list ascii)) : Prop := relems x = l.
Lemma copies_ok : forall l, xgives istrue (s_copies ok (St := St) l) (Ok tt).
Proof.
  induction l as [|t l IH]; cbn [s_copies]; [apply xg_ret; exact Logic.I|]. eapply xg_pre; [apply alloc_ok|]. intros _ _. apply IH.
Qed.
Lemma push_ok : forall l x, xgives isrow (fs_push ok grow (St := St) l x) (push (relems l) x).
Proof.
  intros l x. unfold fs_push.
  assert (E : push (relems l) x = bind (check_full (size (relems l)) INT_MAX) (fun _ => Ok (relems l ++ [x]))).
  { unfold push, on_copy, list_append, update. destruct (check_full _ _); reflexivity. }
  rewrite E. eapply xg_bind; [apply xg_lift|]. intros ? ? _ _. destruct (Nat.ltb _ _).
  - eapply xg_pre; [apply alloc_ok|]. intros _ _. apply xg_ret. reflexivity.
  - eapply xg_pre; [apply xg_event|]. intros _ _. eapply xg_pre; [apply alloc_ok|]. intros _ _.
    eapply xg_pre; [apply copies_ok|]. intros _ _. apply xg_ret. reflexivity.
Qed.
Lemma push_part_ok : forall l x, xgives isrow (fs_push_part ok grow (St := St) l x) (push (relems l) x).
Proof.
  intros l x. unfold fs_push_part. eapply xg_pre; [apply alloc_ok|]. intros _ _. eapply xg_pre; [apply alloc_ok|]. intros _ _. apply push_ok.
Qed.
Lemma split_loop_ok : forall s w keep f i l, xgives isrow (fs_split_loop ok grow (St := St) s w keep f i l) (split_loop s w keep f i (relems l)).
Proof.
  intros s w keep. induction f as [|f IH]; intros i l; cbn [fs_split_loop split_loop].
  - intros z. apply xwp_lift. cbn. auto.
  - eapply xg_bind; [apply xg_lift|]. intros j ? _ ->. destruct (_ =? -1)%Z.
    + destruct (_ || _)%bool; [|apply xg_ret; reflexivity]. eapply xg_bind; [apply xg_lift|]. intros r ? _ ->. apply push_part_ok.
    + eapply xg_bind with (P := isrow).
      * destruct (_ && _)%bool; [apply xg_ret; reflexivity|]. eapply xg_bind; [apply xg_lift|]. intros n ? _ ->.
        eapply xg_bind; [apply xg_lift|]. intros r ? _ ->. apply push_part_ok.
      * intros l' ? _ E. unfold isrow in E. subst. eapply xg_bind; [apply xg_lift|]. intros n ? _ ->. apply IH.
Qed.
Lemma split_ok : forall s w keep, xgives isrow (fs_split ok grow (St := St) s w keep) (str_split s w keep).
Proof.
  intros s w keep. unfold fs_split, str_split. destruct (str_is_empty w); [intros z; apply xwp_lift; cbn; auto|]. apply (split_loop_ok _ _ _ _ _ (Rvec [] 0)).
Qed.
Lemma join_loop_ok : forall w l n i b, xgives isstr (fs_join_loop ok (St := St) w l n i b) (join_loop w l n i (xchars b)).
Proof.
  intros w l. induction n as [|n IH]; intros i b; cbn [fs_join_loop join_loop]; [apply xg_ret; reflexivity|].
  eapply xg_bind; [apply xg_lift|]. intros x ? _ ->. eapply xg_pre; [apply concat_ok|]. intros t E. rewrite E.
  eapply xg_pre; [apply append_ok|]. intros b' E'. rewrite <- E'. apply IH.
Qed.
Lemma join_ok : forall w l, xgives isstr (fs_join ok (St := St) w l) (str_join w l).
Proof.
  intros w l. unfold fs_join, str_join. destruct (list_is_empty l); [apply xg_ret; reflexivity|].
  eapply xg_bind; [apply xg_lift|]. intros x ? _ ->. eapply xg_pre; [apply new_ok|]. intros b' E. rewrite <- E.
  match goal with |- xgives _ _ ?o => replace o with (bind o Ok) by (destruct o; reflexivity) end.
  eapply xg_bind; [apply join_loop_ok|]. intros x' t _ E'. rewrite E'. apply new_ok.
Qed.

Definition loop_is (a : state * bool * MInt) (b : state * bool * Int) : Prop := fst a = fst b /\ is_int (snd a) (snd b).
Lemma integer_loop_ok : forall q base n cs st nn x, fits x ->
  xgives loop_is (fs_integer_loop ok grow (St := St) q base n cs st nn x) (integer_loop q base n cs st nn (forget x)).
Proof.
  intros q base n. induction cs as [|c cs IH]; intros st nn x F; cbn [fs_integer_loop integer_loop].
  - apply xg_ret. repeat split; auto.
  - eapply xg_bind; [apply xg_lift|]. intros ? ev _ ->.
    assert (D : xgives loop_is
      (b <~ xmem (m_of_int grow ok base) ;; m <~ xmem (m_mul ok q x b) ;;
       d <~ xlift (char_to_integer c base) ;; d <~ xmem (m_of_int grow ok d) ;; y <~ xmem (m_add grow ok q m d) ;;
       fs_integer_loop ok grow (St := St) q base n cs S_INT nn y)
      (bind (int_of_int base) (fun b => bind (int_mul q (forget x) b) (fun m => bind (char_to_integer c base) (fun d =>
       bind (int_of_int d) (fun d => bind (int_add q m d) (fun y => integer_loop q base n cs S_INT nn y))))))).
    { eapply xg_bind; [apply xg_mem; [apply of_int_gives|apply of_int_first]|]. intros b ? _ [<- _].
      eapply xg_bind; [apply xg_mem; [apply (mul_gives grow)|apply mul_first]|]. intros m ? _ [<- _].
      eapply xg_bind; [apply xg_lift|]. intros d ? _ ->.
      eapply xg_bind; [apply xg_mem; [apply of_int_gives|apply of_int_first]|]. intros d' ? _ [<- _].
      eapply xg_bind; [apply xg_mem; [apply add_gives|apply add_first]|]. intros y ? _ [<- F']. apply IH. exact F'. }
    assert (L : xgives loop_is (st' <~ @xlift St _ (leave_loop n) ;; xret (st', nn, x)) (bind (leave_loop n) (fun st' => Ok (st', nn, forget x)))).
    { eapply xg_bind; [apply xg_lift|]. intros ? ? _ ->. apply xg_ret. repeat split; auto. }
    destruct st, ev; try exact D; try exact L; apply IH; exact F.
Qed.
Lemma to_integer_ok : forall q s base, xgives is_int (fs_to_integer ok grow (St := St) q s base) (str_to_integer q s base).
Proof.
  intros q s base. unfold fs_to_integer, str_to_integer. destruct (_ || _)%bool; [intros z; apply xwp_lift; cbn; auto|].
  eapply xg_bind; [apply (integer_loop_ok q base (size s) s S_START true mzero); unfold fits; cbn; lia|].
  intros ((st, nn), x) ((st', nn'), x') _ (E & I). cbn [fst snd] in E, I. injection E as -> ->. destruct I as [<- F].
  assert (N : xgives is_int (if nn' then @xmem St _ (m_copy ok x) else xmem (m_neg ok x)) (Ok (if nn' then forget x else int_neg (forget x)))).
  { destruct nn'; apply xg_mem; [apply copy_gives|apply copy_first|apply neg_gives|apply neg_first]. }
  destruct st'; try exact N; intros z; apply xwp_lift; cbn; auto.
Qed.

(** ** String streams *)
Lemma put_spec : forall t b (s : St) k, sbad b = false -> length (swritten b) <= sroom b -> brim (sroom b) ->
  exists b' k', s_put ok t b s k = (XRet b', s, k') /\ k <= k' /\
  ((plenty ok k k' /\ swritten b' = swritten b ++ t) \/
   (IntMemSpec.short ok k k' /\ exists n, brim n /\ length (swritten b) <= n < length (swritten b ++ t) /\ swritten b' = firstn n (swritten b ++ t))).
Proof.
  induction t as [|c t IH]; intros b s k B L R; cbn [s_put].
  - exists b, k. repeat split; auto. left. rewrite app_nil_r. split; [apply plenty_nil|reflexivity].
  - rewrite B. destruct (Nat.ltb_spec (length (swritten b)) (sroom b)) as [H|H].
    + destruct (IH (Sbuf (swritten b ++ [c]) (sroom b) false) s k eq_refl) as (b' & k' & E & K & D); cbn [swritten sroom] in *; auto.
      { rewrite app_length. cbn. lia. }
      exists b', k'. rewrite <- app_assoc in D. cbn [app] in D. repeat split; auto. destruct D as [D|(D1 & n & D2 & D3 & D4)]; [left; exact D|right].
      split; auto. exists n. repeat split; auto; [|lia]. rewrite app_length in D3. cbn in D3. lia.
    + assert (EQ : length (swritten b) = sroom b) by lia.
      unfold xbind, xask. destruct (ok k) eqn:O.
      * destruct (IH (Sbuf (swritten b ++ [c]) (Nat.max 512 (2 * sroom b)) false) s (S k) eq_refl) as (b' & k' & E & K & D); cbn [swritten sroom] in *.
        { rewrite app_length. cbn [length]. destruct R as [R|(i & R)]; rewrite R in *; [lia|]. assert (1 <= 2 ^ i) by (apply Nat.neq_0_lt_0, Nat.pow_nonzero; lia). lia. }
        { destruct R as [R|(i & R)]; rewrite R.
          - right. exists 0. reflexivity.
          - right. exists (S i). assert (1 <= 2 ^ i) by (apply Nat.neq_0_lt_0, Nat.pow_nonzero; lia). rewrite Nat.pow_succ_r'. lia. }
        exists b', k'. rewrite <- app_assoc in D. cbn [app] in D. repeat split; auto; [lia|].
        assert (P1 : plenty ok k (S k)) by (intros j Hj; replace j with k by lia; exact O).
        destruct D as [(D1 & D2)|(D1 & n & D2 & D3 & D4)]; [left|right].
        -- split; auto. eapply plenty_app; eauto.
        -- split; [destruct D1 as (j & J & F); exists j; split; auto; lia|]. exists n. repeat split; auto; [|lia]. rewrite app_length in D3. cbn in D3. lia.
      * exists (Sbuf (swritten b) (sroom b) true), (S k). repeat split; auto. right. split; [exists k; split; auto|].
        exists (sroom b). repeat split; auto.
        -- rewrite app_length. cbn [length]. lia.
        -- cbn [swritten]. rewrite <- EQ. rewrite firstn_app, Nat.sub_diag, firstn_all. cbn [firstn]. rewrite app_nil_r. reflexivity.
Qed.
Lemma stream_spec : forall t (s : St) k, exists b' k', s_put ok t s_stream s k = (XRet b', s, k') /\ k <= k' /\
  ((plenty ok k k' /\ swritten b' = t) \/
   (IntMemSpec.short ok k k' /\ exists n, brim n /\ n < length t /\ swritten b' = firstn n t)).
Proof.
  intros t s k. destruct (put_spec t s_stream s k eq_refl) as (b' & k' & E & K & D); cbn [swritten sroom s_stream app] in *; [cbn; unfold LOCAL; lia|left; reflexivity|].
  exists b', k'. repeat split; auto. destruct D as [D|(D1 & n & D2 & D3 & D4)]; [left; exact D|right]. split; auto. exists n. repeat split; auto. lia.
Qed.
Lemma text_ok : forall b, xgives isstr (s_text ok (St := St) b) (Ok (swritten b)).
Proof. intros b. unfold s_text. eapply xg_pre; [apply alloc_ok|]. intros _ _. apply xg_ret. reflexivity. Qed.
End Gives.

(** ** Statements *)
Section Statements.
Variables (ok : nat -> bool) (grow : nat -> nat -> nat).

Lemma agree_refl : forall s, agree s s.
Proof. intros s. split; auto. Qed.
Lemma agree_trans : forall a b c, agree a b -> agree b c -> agree a c.
Proof. intros a b c (H1 & H2) (H3 & H4). split; intros v; congruence. Qed.
Lemma agree_str : forall s u x t, xchars x = t -> agree (set_str (ftexts s) u t) (ftexts (fset_str s u x)).
Proof. intros s u x t <-. split; [|reflexivity]. intros v. cbn. destruct (Nat.eqb v u); reflexivity. Qed.
Lemma agree_row : forall s l x r, relems x = r -> agree (set_row (ftexts s) l r) (ftexts (fset_row s l x)).
Proof. intros s u x t <-. split; [reflexivity|]. intros v. cbn. destruct (Nat.eqb v u); reflexivity. Qed.

Lemma let_ends : forall s u k m o, xgives ok isstr m o -> xends ok (xlet (ftexts s) u o) (ftexts s) k (fxlet s u k m).
Proof.
  intros s u k m o G. specialize (G tt k). unfold fxlet. destruct (m tt k) as [[[x|[n|e|w|]] []] k']; cbn [fxstop xends].
  - destruct G as (L & P & _ & b & -> & E). left. repeat split; auto. cbn [xlet]. do 2 eexists. split; [reflexivity|]. split; [|reflexivity]. apply agree_str, E.
  - destruct G as (L & E & F & P & _). right. exists n. repeat split; auto; apply agree_refl.
  - destruct G as (L & P & _ & ->). left. repeat split; auto. cbn [xlet]. do 2 eexists. split; [reflexivity|]. split; [apply agree_refl|reflexivity].
  - destruct G as (_ & _ & _ & ->). reflexivity.
  - destruct G as (_ & _ & _ & ->). reflexivity.
Qed.
Lemma row_ends : forall s l k m o, xgives ok isrow m o -> xends ok (xrow (ftexts s) l o) (ftexts s) k (fxrow s l k m).
Proof.
  intros s u k m o G. specialize (G tt k). unfold fxrow. destruct (m tt k) as [[[x|[n|e|w|]] []] k']; cbn [fxstop xends].
  - destruct G as (L & P & _ & b & -> & E). left. repeat split; auto. cbn [xrow]. do 2 eexists. split; [reflexivity|]. split; [|reflexivity]. apply agree_row, E.
  - destruct G as (L & E & F & P & _). right. exists n. repeat split; auto; apply agree_refl.
  - destruct G as (L & P & _ & ->). left. repeat split; auto. cbn [xrow]. do 2 eexists. split; [reflexivity|]. split; [apply agree_refl|reflexivity].
  - destruct G as (_ & _ & _ & ->). reflexivity.
  - destruct G as (_ & _ & _ & ->). reflexivity.
Qed.
Lemma emit_ends : forall A s k (m : xm unit A) o ev, xgives ok eq m o -> xends ok (xemit (ftexts s) o ev) (ftexts s) k (fxemit s k m ev).
Proof.
  intros A s k m o ev G. specialize (G tt k). unfold fxemit. destruct (m tt k) as [[[x|[n|e|w|]] []] k']; cbn [fxstop xends].
  - destruct G as (L & P & _ & b & -> & ->). left. repeat split; auto. cbn [xemit]. do 2 eexists. split; [reflexivity|]. split; [apply agree_refl|reflexivity].
  - destruct G as (L & E & F & P & _). right. exists n. repeat split; auto; apply agree_refl.
  - destruct G as (L & P & _ & ->). left. repeat split; auto. cbn [xemit]. do 2 eexists. split; [reflexivity|]. split; [apply agree_refl|reflexivity].
  - destruct G as (_ & _ & _ & ->). reflexivity.
  - destruct G as (_ & _ & _ & ->). reflexivity.
Qed.
Lemma usual_ends : forall base s k s0 ev0 s' ev, base = Ok (s0, ev0) -> agree s0 (ftexts s') -> ev = map Saw ev0 -> xends ok base s k (Ok (s', k, ev)).
Proof. intros. left. repeat split; auto using plenty_nil. eauto. Qed.

Theorem step_ends : forall p q c s k, unstreamed c (ftexts s) ->
  xends ok (xstep p q c (ftexts s)) (ftexts s) k (fxstep ok grow p q c s k).
Proof.
  intros p q c s k U. destruct c; cbn [unstreamed] in U; cbn [xstep fxstep];
    try (apply let_ends; first [apply new_ok | apply plus_ok | apply times_ok | apply shl_ok | apply shr_ok | apply reverse_ok | apply lower_ok
         | apply upper_ok | apply erase_ok | apply strip_ok | apply slice_ok | apply join_ok | apply lift_new]);
    try (apply row_ends; first [apply split_ok | apply push_ok]);
    try (apply emit_ends; first [apply xg_lift | apply xg_ret; reflexivity]).
  - (* move *) unfold str_move. destruct p; cbn [const_write bind]; [reflexivity|].
    eapply usual_ends; [reflexivity| |reflexivity]. split; [|reflexivity]. intros w. cbn. destruct (Nat.eqb w u); [reflexivity|]. destruct (Nat.eqb w v); reflexivity.
  - (* assign *) unfold str_assign. destruct p; cbn [const_write bind]; [reflexivity|]. destruct (Nat.eqb_spec u v) as [->|N].
    { eapply usual_ends; [reflexivity| |reflexivity]. split; [|reflexivity]. intros w. cbn. destruct (Nat.eqb_spec w v) as [->|]; reflexivity. }
    unfold fxon, s_assign, xbind, xget. destruct (Nat.leb _ _).
    { unfold xput. eapply usual_ends; [reflexivity|apply agree_str; reflexivity|reflexivity]. }
    unfold FailModel.xevent. destruct (ok k) eqn:O; cbn [fxstop xends xput].
    + left. repeat split; auto; [intros j Hj; replace j with k by lia; exact O|]. do 2 eexists. split; [reflexivity|]. split; [apply agree_str; reflexivity|reflexivity].
    + right. exists k. repeat split; auto using plenty_nil. intros w. cbn. destruct (Nat.eqb_spec w u) as [->|]; reflexivity.
  - (* move assign *) unfold str_move. destruct p; cbn [const_write bind]; [reflexivity|]. destruct (Nat.eqb_spec u v) as [->|N]; [reflexivity|].
    eapply usual_ends; [reflexivity| |reflexivity]. unfold s_move_assign. split; [|reflexivity]. intros w. cbn.
    destruct (is_local (fstrs s v)); cbn; destruct (Nat.eqb w u); try reflexivity; destruct (Nat.eqb w v); try reflexivity.
    destruct (is_local (fstrs s u)); reflexivity.
  - (* replace *) apply let_ends. unfold fs_replace, str_replace. cbn [ftexts strs] in U |- *.
    destruct (xchars (fstrs s w)) as [|c0 w0] eqn:W; [congruence|]. cbn [str_is_empty]. apply (replace_loop_ok ok _ _ _ _ _ xempty).
  - contradiction.
  - (* to_integer *) apply emit_ends. eapply xg_bind; [apply to_integer_ok|]. intros x t _ (<- & _). apply xg_ret. reflexivity.
  - eapply usual_ends; [reflexivity|apply agree_refl|]. rewrite map_map. reflexivity.
  - eapply usual_ends; [reflexivity|apply agree_refl|]. rewrite map_map. reflexivity.
Qed.

(** The others *)
Lemma let_tail : forall s u k0 k1 m0 m t, m0 tt k0 = m tt k1 -> xgives ok isstr m (Ok t) ->
  exists s' k' ev, fxlet s u k0 m0 = Ok (s', k', ev) /\ k1 <= k' /\
  ((plenty ok k1 k' /\ ev = [] /\ agree (set_str (ftexts s) u t) (ftexts s')) \/
   (exists n, ev = [Failed n] /\ k1 <= n /\ k' = S n /\ ok n = false /\ agree (ftexts s) (ftexts s'))).
Proof.
  intros s u k0 k1 m0 m t E G. pose proof (let_ends s u k1 m (Ok t) G) as H. unfold fxlet in *. rewrite E.
  destruct (m tt k1) as [[[x|[n|e|w|]] []] k']; cbn [fxstop xends xlet] in *; try discriminate.
  - do 3 eexists. split; [reflexivity|]. destruct H as [(L & P & s0 & ev0 & B & A & V)|(n & X & _)]; [|discriminate]. injection B as <- <-. split; auto.
  - do 3 eexists. split; [reflexivity|]. destruct H as [(L & P & s0 & ev0 & B & A & V)|(n' & X & L & K & F & P & A)].
    + injection B as <- <-. discriminate.
    + injection X as <-. split; [lia|]. right. exists n. repeat split; auto; apply A.
  - do 3 eexists. split; [reflexivity|]. destruct H as [(L & P & s0 & ev0 & B & A & V)|(n & X & _)]; [|discriminate]. injection B as <- <-. discriminate.
Qed.

Lemma stream_let : forall s u k c full (m : sbuf -> xm unit xstr) (h : list ascii -> list ascii),
  (forall b, xgives ok isstr (m b) (Ok (h (swritten b)))) -> declares c u ->
  (forall n, brim n -> n < length full -> truncated (ftexts s) c (h full) (h (firstn n full))) ->
  xtruncates ok c (h full) (ftexts s) k (fxlet s u k (b <~ s_put ok full s_stream ;; m b)).
Proof.
  intros s u k c full m h G D T. destruct (stream_spec ok full tt k) as (b & k1 & E & L & C).
  destruct (let_tail s u k k1 (b <~ s_put ok full s_stream ;; m b) (m b) (h (swritten b))) as (s' & k' & ev & F & L' & R).
  - unfold xbind. rewrite E. reflexivity.
  - apply G.
  - exists s', k', ev, u. rewrite F. split; [reflexivity|]. split; [exact D|]. split; [lia|].
    destruct R as [(P & V & A)|(n & V & L2 & K & N & A)].
    + destruct C as [(P1 & W)|(Sh & n & B & Ln & W)]; rewrite W in A.
      * left. repeat split; auto; try apply A. eapply plenty_app; eauto.
      * right. right. split; [destruct Sh as (j & J & O); exists j; split; auto; lia|]. split; auto. exists (h (firstn n full)). split; auto.
    + right. left. exists n. repeat split; auto; try apply A. lia.
Qed.

Theorem step_truncates : forall p q c s k, ~ unstreamed c (ftexts s) ->
  exists u t, declares c u /\ xstep p q c (ftexts s) = Ok (set_str (ftexts s) u t, []) /\
              xtruncates ok c t (ftexts s) k (fxstep ok grow p q c s k).
Proof.
  intros p q c s k N. destruct c; cbn [unstreamed] in N; try (exfalso; apply N; exact Logic.I).
  - cbn [ftexts strs] in N. assert (W : xchars (fstrs s w) = []) by (destruct (xchars (fstrs s w)); [reflexivity|exfalso; apply N; discriminate]).
    exists u. cbn [xstep fxstep ftexts strs]. rewrite W. unfold str_replace, fs_replace. cbn [str_is_empty xlet].
    eexists. split; [reflexivity|]. split; [reflexivity|].
    apply (stream_let s u k (XReplace u v w x) _ _ (fun t => xchars (fstrs s x) ++ t)).
    + intros b. eapply xg_pre; [apply text_ok|]. intros t E.
      eapply xg_pre with (P := istrue) (b := tt); [destruct (Nat.leb _ _); [apply xg_ret; exact Logic.I|apply xg_event]|]. intros _ _. rewrite E. apply new_ok.
    + reflexivity.
    + intros n B L.
      match goal with |- truncated _ _ ?full _ => replace (xchars (fstrs s x) ++ firstn n (flat_map (fun c => c :: StreamModel.c_str (xchars (fstrs s x))) (xchars (fstrs s v))))
        with (firstn (length (strs (ftexts s) x) + n) full) end.
      * apply tr_replace; auto. cbn [ftexts strs]. rewrite app_length. lia.
      * cbn [ftexts strs]. rewrite firstn_app, firstn_all2 by lia. f_equal. f_equal. lia.
  - exists u. cbn [xstep fxstep xlet ftexts strs]. eexists. split; [reflexivity|]. split; [reflexivity|]. unfold fs_format.
    apply (stream_let s u k (XFormat u v args) _ _ (fun t => t)).
    + intros b. eapply xg_pre; [apply text_ok|]. intros t E. rewrite E. apply new_ok.
    + reflexivity.
    + intros n B L. apply tr_format; auto.
Qed.

Theorem eventless_count : forall p q c s k s' k' ev, xeventless c -> fxstep ok grow p q c s k = Ok (s', k', ev) -> k' = k.
Proof.
  intros p q c s k s' k' ev V E. destruct c; cbn [xeventless] in V; try contradiction; subst; cbn [fxstep] in E;
    try (destruct p; cbn [const_write bind] in E; [discriminate|]); rewrite ?Nat.eqb_refl in E;
    try (injection E as <- <- <-; reflexivity);
    try (unfold fxemit, xret in E; injection E as <- <- <-; reflexivity);
    try (unfold fxemit, xlift in E; match type of E with context [match ?o with Ok _ => _ | _ => _ end] => destruct o end; cbn [fxstop] in E; try discriminate; injection E as <- <- <-; reflexivity).
  destruct (Nat.eqb u v); [discriminate|]. injection E as <- <- <-. reflexivity.
Qed.
End Statements.

(** ** Programs *)
Section Programs.
Variables (ok : nat -> bool) (grow : nat -> nat -> nat) (q : policy).
Notation run := (fxrun ok grow ConstBenign q).

Lemma short_agree : forall s s', agree s s' -> StrProgSpec.short s -> StrProgSpec.short s'.
Proof. intros s s' (A & B) (H1 & H2). split; intros v; [rewrite A|rewrite B]; auto. Qed.
Lemma agree_sym : forall s s', agree s s' -> agree s' s.
Proof. intros s s' (A & B). split; intros v; congruence. Qed.
Definition settled (s : xstore) : Prop := StrProgSpec.short s \/ ~ StrProgSpec.short s.
Lemma settled_agree : forall s s', agree s s' -> settled s -> settled s'.
Proof. intros s s' A [H|H]; [left|right]; [eapply short_agree; eauto|]. intros K. apply H. eapply short_agree; [apply agree_sym|]; eauto. Qed.

Lemma step_cases : forall c s k, StrProgSpec.short (ftexts s) -> xint c ->
  (exists s' k' ev, fxstep ok grow ConstBenign q c s k = Ok (s', k', ev) /\ settled (ftexts s') /\
     ((exists s0 ev0, astep c (ftexts s) s0 ev0 /\ agree s0 (ftexts s') /\ ev = map Saw ev0) \/
      (exists n, ev = [Failed n] /\ ~ xeventless c /\ agree (ftexts s) (ftexts s')) \/
      (exists u t t', astep c (ftexts s) (set_str (ftexts s) u t) [] /\ truncated (ftexts s) c t t' /\ agree (set_str (ftexts s) u t') (ftexts s') /\ ev = []))) \/
  (undefined c (ftexts s) /\ exists w, fxstep ok grow ConstBenign q c s k = UB w).
Proof.
  intros c s k Sh A.
  assert (U : unstreamed c (ftexts s) \/ ~ unstreamed c (ftexts s)).
  { destruct c; cbn [unstreamed]; auto. destruct (strs (ftexts s) w); [right; congruence|left; discriminate]. }
  destruct U as [U|U].
  - pose proof (step_ends ok grow ConstBenign q c s k U) as E. destruct (fxstep ok grow ConstBenign q c s k) as [[[s' k'] ev]| |w|] eqn:F; cbn [xends] in E.
    + left. exists s', k', ev. split; [reflexivity|]. destruct E as [(_ & _ & s0 & ev0 & B & G & V)|(n & V & L & K & O & P & G)].
      * apply step_exact in B; auto. split; [eapply settled_agree; [exact G|]; eapply step_short; eauto|]. left. eauto.
      * split; [left; eapply short_agree; eauto|]. right. left. exists n. split; [exact V|]. split; [|exact G].
        intros X. pose proof (eventless_count ok grow _ _ _ _ _ _ _ _ X F). lia.
    + contradiction.
    + right. split; [|eauto]. apply (undefined_exact q); eauto.
    + destruct (sound q c (ftexts s) Sh A) as [(s2 & ev2 & P)|(_ & u & P)]; [|congruence]. apply (complete q _ _ _ _ Sh A) in P. congruence.
  - left. destruct (step_truncates ok grow ConstBenign q c s k U) as (u & t & D0 & B & s' & k' & ev & u' & F & D & L & R).
    exists s', k', ev. split; [exact F|]. apply (step_exact q) in B; auto.
    assert (u' = u) as ->.
    { destruct c; cbn [declares] in D, D0; try contradiction; congruence. }
    destruct R as [(P & G & V)|[(n & V & Ln & K & O & G)|(_ & V & t' & T & G)]].
    + split; [eapply settled_agree; [exact G|]; apply (set_short _ _ _ Sh)|]. left. subst. eauto.
    + split; [left; eapply short_agree; eauto|]. right. left. exists n. split; [exact V|]. split; [|exact G].
      intros X. pose proof (eventless_count ok grow _ _ _ _ _ _ _ _ X F). lia.
    + split; [eapply settled_agree; [exact G|]; apply (set_short _ _ _ Sh)|]. right. right. exists u, t, t'. auto.
Qed.
Theorem fails_cases : forall prog s k, StrProgSpec.short (ftexts s) -> Forall xint prog ->
  (exists s' k' ev, run prog s k = Ok (s', k', ev) /\ xsurvives prog (ftexts s) (ftexts s') ev) \/
  (exists before c after s1 ev1, prog = before ++ c :: after /\ xsurvives before (ftexts s) s1 ev1 /\ StrProgSpec.short s1 /\ undefined c s1 /\
     exists w, run prog s k = UB w) \/
  (exists before after s1 ev1, prog = before ++ after /\ after <> [] /\ xsurvives before (ftexts s) s1 ev1 /\ ~ StrProgSpec.short s1).
Proof.
  induction prog as [|c prog IH]; intros s k Sh A.
  - left. exists s, k, []. split; [reflexivity|]. apply xs_nil, agree_refl.
  - inversion A as [|? ? Ac Ar]; subst. destruct (step_cases c s k Sh Ac) as [(s1 & k1 & ev1 & E & D & C)|(U & w & E)].
    2:{ right. left. exists [], c, prog, (ftexts s), []. repeat split; auto; try apply Sh. { apply xs_nil, agree_refl. } exists w. cbn [fxrun]. rewrite E. reflexivity. }
    assert (X : forall rest e2 ev2, xsurvives rest (ftexts s1) e2 ev2 -> xsurvives (c :: rest) (ftexts s) e2 (ev1 ++ ev2)).
    { intros rest e2 ev2 R. destruct C as [(s0 & ev0 & B & G & ->)|[(n & -> & N & G)|(u & t & t' & B & T & G & ->)]].
      - eapply xs_done; eauto.
      - eapply xs_failed; eauto.
      - eapply xs_cut; eauto. }
    destruct D as [D|D].
    + destruct (IH s1 k1 D Ar) as [(s2 & k2 & ev2 & F & R)|[(before & c' & after & s2 & ev2 & -> & R & S2 & U & w & F)|(before & after & s2 & ev2 & -> & N & R & S2)]].
      * left. exists s2, k2, (ev1 ++ ev2). cbn [fxrun]. rewrite E. cbn [bind]. rewrite F. cbn [bind]. auto.
      * right. left. exists (c :: before), c', after, s2, (ev1 ++ ev2). repeat split; auto; try apply S2. exists w. cbn [fxrun]. rewrite E. cbn [bind]. rewrite F. reflexivity.
      * right. right. exists (c :: before), after, s2, (ev1 ++ ev2). repeat split; auto.
    + destruct prog as [|c2 prog].
      * left. exists s1, k1, (ev1 ++ []). cbn [fxrun]. rewrite E. cbn [bind]. split; [reflexivity|]. apply X, xs_nil, agree_refl.
      * right. right. exists [c], (c2 :: prog), (ftexts s1), (ev1 ++ []). repeat split; auto; [discriminate|]. apply X, xs_nil, agree_refl.
Qed.

(** With memory for everything, a statement does what it does in StrProgModel. *)
Theorem all_well : forall p c s k s0 ev0, (forall n, k <= n -> ok n = true) -> xstep p q c (ftexts s) = Ok (s0, ev0) ->
  exists s' k', fxstep ok grow p q c s k = Ok (s', k', map Saw ev0) /\ agree s0 (ftexts s').
Proof.
  intros p c s k s0 ev0 W B.
  assert (U : unstreamed c (ftexts s) \/ ~ unstreamed c (ftexts s)).
  { destruct c; cbn [unstreamed]; auto. destruct (strs (ftexts s) w); [right; congruence|left; discriminate]. }
  destruct U as [U|U].
  - pose proof (step_ends ok grow p q c s k U) as E. destruct (fxstep ok grow p q c s k) as [[[s' k'] ev]| |w|]; cbn [xends] in E; try congruence; [|contradiction].
    destruct E as [(_ & _ & s1 & ev1 & B' & G & V)|(n & V & L & K & O & P & G)].
    + rewrite B in B'. injection B' as <- <-. subst. eauto.
    + rewrite (W n L) in O. discriminate.
  - destruct (step_truncates ok grow p q c s k U) as (u & t & D0 & B' & s' & k' & ev & u' & F & D & L & R).
    assert (u' = u) as -> by (destruct c; cbn [declares] in D, D0; try contradiction; congruence).
    rewrite B in B'. injection B' as -> ->. exists s', k'. rewrite F.
    destruct R as [(P & G & V)|[(n & V & Ln & K & O & G)|((j & J & O) & V & t' & T & G)]].
    + subst. auto.
    + rewrite (W n Ln) in O. discriminate.
    + rewrite (W j) in O by lia. discriminate.
Qed.
End Programs.
