(** Which error texts client programs can see: proofs. *)
From Coq Require Import String Ascii ZArith QArith List Bool Lia.
From Verif Require Import Outcome Show IntModel IntSpec IntBase IntProgModel IntProgSpec IntProg FracModel FracProgModel FracSpec FracGcd
  ListModel ListSpec ListProgModel ListProgSpec ListFacts ListMore ListProg DequeModel DequeSpec DequeFacts
  SetModel SetSpec SetFacts SetMore SetProg DictModel DictSpec DictFacts DictProg StrModel StrSpec StrProgModel StrProgSpec StrProg
  ExTools ErrorSpec.
Import ListNotations.
Open Scope Z_scope.

Lemma message_inj : forall e e', message e = message e' -> e = e'.
Proof. intros [] []; cbn; intros H; reflexivity || discriminate H. Qed.

Lemma message_error : forall e, own e <-> exists rest, message e = ("Error: " ++ rest)%string.
Proof.
  intros e; split.
  - intros (A & B); destruct e; try (eexists; reflexivity); congruence.
  - intros (r & E). split; intros ->; discriminate E.
Qed.

Ltac pick := unfold In; repeat first [left; reflexivity | right].

(** ** Lists *)
Section L.
Context {T : Type} (eqb lt : T -> T -> bool) (show : T -> list ascii) (d : T).

Lemma mut_errors : forall c l l' ev, mut eqb lt c l l' ev -> forall e, In (LThrow e) ev ->
  In e [IndexOutOfRange; ContainerEmpty; ContainerFull; NegativeTimes].
Proof. induction 1; intros e' I; auto; cbn [In] in I; repeat (destruct I as [I|I]; [try discriminate I; injection I as <-; pick|]); destruct I. Qed.
Lemma sstep_errors : forall c s s' ev, sstep eqb lt show c s s' ev -> forall e, In (LThrow e) ev ->
  In e [IndexOutOfRange; ContainerEmpty; ContainerFull; NegativeTimes; SliceStepZero].
Proof.
  destruct 1; intros e' I;
    try (cbn [In] in I; repeat (destruct I as [I|I]; [try discriminate I; injection I as <-; pick|]); destruct I; fail).
  - pose proof (mut_errors _ _ _ _ H0 _ I) as K. cbn [In] in K |- *. tauto.
  - destruct I as [I|[]]. injection I as <-. pose proof (mut_errors _ _ _ _ H0 _ (or_introl eq_refl)) as K. cbn [In] in K |- *. tauto.
Qed.
Lemma srun_errors : forall prog s s' ev, srun eqb lt show prog s s' ev -> forall e, In (LThrow e) ev ->
  In e [IndexOutOfRange; ContainerEmpty; ContainerFull; NegativeTimes; SliceStepZero].
Proof.
  induction 1; intros e I; [destruct I|]. apply in_app_or in I. destruct I as [I|I]; [eapply sstep_errors; eauto|eauto].
Qed.

Theorem list_texts : decides eqb -> strict_weak lt -> forall m, list_text eqb lt show d m <->
  In m ["Error: Index out of range."; "Error: The container is empty."; "Error: The container has reached the maximum size.";
        "Error: Times to repeat can not be less than zero."; "Error: Slice step can not be zero."]%string.
Proof.
  intros D W m; split.
  - intros (prog & s & s' & ev & e & S & F & R & I & <-).
    apply (run_exact eqb lt show d D W) in R; auto. pose proof (srun_errors _ _ _ _ R _ I) as K.
    cbn [In] in K |- *. decompose [or] K; subst; cbn; auto 10.
  - assert (S0 : sized (fun _ : lvar => @nil T)) by (intros v; cbn; unfold INT_MAX; lia).
    assert (One : forall c s s' e, sized s -> int_stmt c -> sstep eqb lt show c s s' [LThrow e] -> list_text eqb lt show d (message e)).
    { intros c s s' e S C H. exists [c], s, s', ([LThrow e] ++ []), e. split; auto. split; [constructor; auto|].
      split; [|split; [left; auto|auto]]. apply (run_exact eqb lt show d D W); [auto|constructor; auto|]. econstructor; [exact H|constructor]. }
    cbn [In]. intros [<-|[<-|[<-|[<-|[<-|[]]]]]].
    + apply (One (LGet 0%nat 0) (fun _ => []) (fun _ => []) IndexOutOfRange); auto; [cbn; unfold INT_MIN, INT_MAX; lia|]. apply s_get_bad. reflexivity.
    + eapply (One (LRemove 0%nat 0) (fun _ => []) _ ContainerEmpty); auto; [cbn; unfold INT_MIN, INT_MAX; lia|].
      eapply s_mut; [reflexivity|]. apply m_remove_empty.
    + assert (E : Z.of_nat (length (repeat d (Z.to_nat INT_MAX))) = INT_MAX) by (rewrite repeat_length; apply Z2Nat.id; unfold INT_MAX; lia).
      eapply (One (LAppend 0%nat d) (fun _ => repeat d (Z.to_nat INT_MAX)) _ ContainerFull); [intros v; rewrite E; lia|exact I|].
      eapply s_mut; [reflexivity|]. apply m_append_full. exact E.
    + eapply (One (LTimes 0%nat (-1)) (fun _ => []) _ NegativeTimes); auto; [cbn; unfold INT_MIN, INT_MAX; lia|].
      eapply s_mut; [reflexivity|]. apply m_times_neg. lia.
    + eapply (One (LSlice 0%nat 0%nat 0 0 0) (fun _ => []) _ SliceStepZero); auto; [cbn; unfold INT_MIN, INT_MAX; lia|]. apply s_slice_step.
Qed.
End L.

(** ** Deques *)
Section D.
Context {T : Type} (eqb : T -> T -> bool) (show : T -> list ascii).

Lemma qrun_errors : forall prog s s' ev, DequeSpec.qrun show prog s s' ev -> forall e, In (DThrow e) ev ->
  In e [IndexOutOfRange; ContainerEmpty; ContainerFull].
Proof.
  induction 1; intros e I; [destruct I|]. apply in_app_or in I. destruct I as [I|I]; [|eauto].
  destruct H; cbn [In] in I; repeat (destruct I as [I|I]; [try discriminate I; injection I as <-; pick|]); destruct I.
Qed.

Theorem deque_texts : decides eqb -> forall x : T, forall m, deque_text eqb show m <->
  In m ["Error: Index out of range."; "Error: The container is empty."; "Error: The container has reached the maximum size."]%string.
Proof.
  intros D x m; split.
  - intros (prog & s & s' & ev & e & S & F & R & I & <-).
    apply (drun_exact eqb show D) in R; auto. pose proof (qrun_errors _ _ _ _ R _ I) as K.
    cbn [In] in K |- *. decompose [or] K; subst; cbn; auto 10.
  - assert (S0 : dsized (fun _ : nat => @nil T)) by (intros v; cbn; unfold INT_MAX; lia).
    assert (One : forall c s s' e, dsized s -> dint_stmt c -> DequeSpec.qstep show c s s' [DThrow e] -> deque_text eqb show (message e)).
    { intros c s s' e S C H. exists [c], s, s', ([DThrow e] ++ []), e. split; auto. split; [constructor; auto|].
      split; [|split; [left; auto|auto]]. apply (drun_exact eqb show D); [auto|constructor; auto|]. econstructor; [exact H|constructor]. }
    cbn [In]. intros [<-|[<-|[<-|[]]]].
    + apply (One (DGet 0%nat 0) (fun _ => []) (fun _ => []) IndexOutOfRange); auto; [cbn; unfold INT_MIN, INT_MAX; lia|]. apply q_get_bad. reflexivity.
    + eapply (One (DPopBack 0%nat) (fun _ => []) _ ContainerEmpty); auto; [exact I|]. apply q_pop_back_empty. reflexivity.
    + assert (E : Z.of_nat (length (repeat x (Z.to_nat INT_MAX))) = INT_MAX) by (rewrite repeat_length; apply Z2Nat.id; unfold INT_MAX; lia).
      eapply (One (DPushBack 0%nat x) (fun _ => repeat x (Z.to_nat INT_MAX)) _ ContainerFull); [intros v; rewrite E; lia|exact I|].
      apply q_push_back_full. exact E.
Qed.
End D.

(** ** Sets *)
Lemma zrun_errors : forall T lt (show : T -> list ascii) prog s s' ev, SetSpec.zrun lt show prog s s' ev -> forall e, In (TThrow e) ev ->
  In e [ContainerEmpty; ContainerFull].
Proof.
  induction 1; intros e' I; [destruct I|]. apply in_app_or in I. destruct I as [I|I]; [|eauto].
  destruct H; try (apply in_map_iff in I; destruct I as (? & I & _); discriminate I);
    cbn [In] in I; repeat (destruct I as [I|I]; [try discriminate I; injection I as <-; pick|]); destruct I.
Qed.
Lemma set_texts_only : forall T lt eqb (show : T -> list ascii), strict_total lt -> decides eqb -> forall m, set_text lt eqb show m ->
  In m ["Error: The container is empty."; "Error: The container has reached the maximum size."]%string.
Proof.
  intros T lt eqb show L D m (prog & s & a & s' & ev & e & S & F & R & I & <-).
  destruct (trun_refines lt eqb show L D prog s a s' ev S F R) as (a' & Q & _).
  pose proof (zrun_errors _ _ _ _ _ _ _ Q _ I) as K. cbn [In] in K |- *. decompose [or] K; subst; cbn; auto.
Qed.
Lemma Zeqb_decides : decides Z.eqb.
Proof. intros x y. apply Z.eqb_eq. Qed.

Theorem set_texts : (forall T lt eqb (show : T -> list ascii), strict_total lt -> decides eqb -> forall m, set_text lt eqb show m ->
    In m ["Error: The container is empty."; "Error: The container has reached the maximum size."]%string) /\
  (forall show m, In m ["Error: The container is empty."; "Error: The container has reached the maximum size."]%string -> set_text Z.ltb Z.eqb show m).
Proof.
  split; [exact set_texts_only|]. intros show m.
  assert (One : forall c s a a' e, stands Z.ltb s a -> tint_stmt c -> SetSpec.zstep Z.ltb show c a a' [TThrow e] -> set_text Z.ltb Z.eqb show (message e)).
  { intros c s a a' e S C H.
    destruct (zrun_complete Z.ltb Z.eqb show Zltb_total Zeqb_decides [c] s a a' ([TThrow e] ++ []) S) as (s' & R & _);
      [constructor; auto|econstructor; [exact H|constructor]|].
    exists [c], s, a, s', ([TThrow e] ++ []), e. split; auto. split; [constructor; auto|]. split; auto. split; [left; auto|auto]. }
  cbn [In]. intros [<-|[<-|[]]].
  - apply (One (TPop 0%nat) (fun _ => []) (fun _ _ => False) (fun _ _ => False) ContainerEmpty); [|exact I|apply z_pop_empty; intros x []].
    intros v. split; [|cbn; unfold INT_MAX; lia]. split; [constructor|]. intros x; split; intros [].
  - destruct full_set as (l & J & L & _). unfold len in L.
    apply (One (TAdd 0%nat 0) (fun _ => l) (fun _ x => In x l) (fun _ x => In x l) ContainerFull); [|exact I|].
    + intros v. split; [split; [auto|tauto]|lia].
    + apply z_add_full. exists l. split; [apply (inc_nodup Z.ltb Zltb_total); auto|]. split; [tauto|auto].
Qed.

(** ** Dicts *)
Lemma frun_errors : forall K V ltk ltv (showk : K -> list ascii) (showv : V -> list ascii) prog s s' ev, DictSpec.frun ltk ltv showk showv prog s s' ev ->
  forall e, In (MThrow e) ev -> In e [ContainerEmpty; ContainerFull; KeyNotFound].
Proof.
  induction 1; intros e' I; [destruct I|]. apply in_app_or in I. destruct I as [I|I]; [|eauto].
  destruct H; try (apply in_map_iff in I; destruct I as (? & I & _); discriminate I);
    cbn [In] in I; repeat (destruct I as [I|I]; [try discriminate I; injection I as <-; pick|]); destruct I.
Qed.

Theorem dict_texts : (forall K V ltk eqk ltv eqv (showk : K -> list ascii) (showv : V -> list ascii),
    strict_total ltk -> strict_total ltv -> decides eqk -> decides eqv -> forall m, dict_text ltk eqk ltv eqv showk showv m ->
    In m ["Error: The container is empty."; "Error: The container has reached the maximum size."; "Error: Key is not found in the dictionary."]%string) /\
  (forall showk showv m,
    In m ["Error: The container is empty."; "Error: The container has reached the maximum size."; "Error: Key is not found in the dictionary."]%string ->
    dict_text Z.ltb Z.eqb Z.ltb Z.eqb showk showv m).
Proof.
  split.
  - intros K V ltk eqk ltv eqv showk showv Lk Lv Dk Dv m (prog & s & a & s' & ev & e & S & F & R & I & <-).
    destruct (mrun_refines ltk eqk ltv eqv showk showv Lk Lv Dk Dv prog s a s' ev S F R) as (a' & Q & _).
    pose proof (frun_errors _ _ _ _ _ _ _ _ _ _ Q _ I) as E. cbn [In] in E |- *. decompose [or] E; subst; cbn; auto.
  - intros showk showv m.
    assert (One : forall c s a a' e, mstands Z.ltb s a -> mint_stmt c -> DictSpec.fstep Z.ltb Z.ltb showk showv c a a' [MThrow e] ->
      dict_text Z.ltb Z.eqb Z.ltb Z.eqb showk showv (message e)).
    { intros c s a a' e S C H.
      destruct (frun_complete Z.ltb Z.eqb Z.ltb Z.eqb showk showv Zltb_total Zltb_total Zeqb_decides Zeqb_decides [c] s a a' ([MThrow e] ++ []) S) as (s' & R & _);
        [constructor; auto|econstructor; [exact H|constructor]|].
      exists [c], s, a, s', ([MThrow e] ++ []), e. split; auto. split; [constructor; auto|]. split; auto. split; [left; auto|auto]. }
    assert (S0 : mstands Z.ltb (fun _ : nat => @nil (Z * Z)) (fun _ _ => None)).
    { intros v. split; [|cbn; unfold INT_MAX; lia]. split; [constructor|]. intros k x; split; [intros []|discriminate]. }
    cbn [In]. intros [<-|[<-|[<-|[]]]].
    + apply (One (MPop 0%nat) _ _ (fun _ _ => None) ContainerEmpty S0 I). apply f_pop_empty. intros x (y & E). discriminate E.
    + destruct full_set as (l & J & L & _). unfold len in L.
      set (f := fun k => if in_dec Z.eq_dec k l then Some 0 else None).
      apply (One (MAdd 0%nat 0 0) (fun _ => map (fun k => (k, 0)) l) (fun _ => f) (fun _ => f) ContainerFull); [|exact I|].
      * intros v. split; [|rewrite map_length; lia]. split; [rewrite map_map; cbn; rewrite map_id; auto|].
        intros k x. unfold f. rewrite in_map_iff. destruct (in_dec Z.eq_dec k l) as [Y|N]; split.
        -- intros (y & E & _). congruence.
        -- intros E. exists k. split; congruence.
        -- intros (y & E & Y). injection E as -> _. contradiction.
        -- discriminate.
      * apply f_add_full. exists l. split; [apply (inc_nodup Z.ltb Zltb_total); auto|]. split; [|auto].
        intros x. unfold has, f. destruct (in_dec Z.eq_dec x l); split; intros; eauto; try contradiction. destruct H; discriminate.
    + apply (One (MGet 0%nat 0) _ _ (fun _ _ => None) KeyNotFound S0 I). apply f_get_absent. reflexivity.
Qed.

(** ** Strings *)
Lemma arun_errors : forall prog s s' ev, arun prog s s' ev -> forall e, In (XThrow e) ev ->
  In e [IndexOutOfRange; ContainerFull; NegativeTimes; SliceStepZero; EmptySeparator; BadBase; BadIntegerLiteral].
Proof.
  induction 1; intros e I; [destruct I|]. apply in_app_or in I. destruct I as [I|I]; [|eauto].
  destruct H0; try (destruct I; fail).
  - destruct I as [I|[]]. injection I as <-. destruct H0; pick.
  - exfalso. destruct H0; try (apply in_map_iff in I; destruct I as (? & I & _); discriminate I); repeat (destruct I as [I|I]; [discriminate I|]); destruct I.
Qed.

Theorem str_texts : forall q m, str_text q m <->
  In m ["Error: Index out of range."; "Error: The container has reached the maximum size."; "Error: Times to repeat can not be less than zero.";
        "Error: Slice step can not be zero."; "Error: Empty separator."; "Error: Invalid base for to_integer()."; "Error: Invalid literal for to_integer()."]%string.
Proof.
  intros q m; split.
  - intros (prog & s & s' & ev & e & F & R & _ & I & <-). pose proof (arun_errors _ _ _ _ R _ I) as K.
    cbn [In] in K |- *. decompose [or] K; subst; cbn; auto 10.
  - set (s0 := XStore (fun _ => []) (fun _ => [])).
    assert (S0 : short s0) by (split; cbn; [|split; [|constructor]]; intros; unfold INT_MAX; lia).
    assert (One : forall c s e, short s -> xint c -> throws s c e -> str_text q (message e)).
    { intros c s e S C H. assert (R : arun [c] s s ([XThrow e] ++ [])) by (econstructor; [auto|apply a_throw; exact H|constructor]).
      exists [c], s, s, ([XThrow e] ++ []), e. split; [constructor; auto|]. split; auto. split; [apply run_complete; auto|]. split; [left; auto|auto]. }
    cbn [In]. intros [<-|[<-|[<-|[<-|[<-|[<-|[<-|[]]]]]]]].
    + apply (One (XAt 0%nat 0) s0 IndexOutOfRange S0); [cbn; unfold INT_MIN, INT_MAX; lia|]. apply t_at. reflexivity.
    + assert (E : Z.of_nat (length (repeat (@nil ascii) (Z.to_nat INT_MAX))) = INT_MAX) by (rewrite repeat_length; apply Z2Nat.id; unfold INT_MAX; lia).
      apply (One (XRowAppend 0%nat 0%nat) (XStore (fun _ => []) (fun _ => repeat [] (Z.to_nat INT_MAX))) ContainerFull).
      * split; cbn [strs rows]; [intros; cbn; unfold INT_MAX; lia|]. intros _. rewrite E. split; [lia|].
        apply Forall_forall. intros t Ht. apply repeat_spec in Ht. subst. cbn. unfold INT_MAX; lia.
      * exact I.
      * apply t_row_append. exact E.
    + apply (One (XTimes 0%nat 0%nat (-1)) s0 NegativeTimes S0); [cbn; unfold INT_MIN, INT_MAX; lia|]. apply t_times. lia.
    + apply (One (XSlice 0%nat 0%nat 0 0 0) s0 SliceStepZero S0); [cbn; unfold INT_MIN, INT_MAX; lia|]. apply t_slice.
    + apply (One (XSplit 0%nat 0%nat 0%nat true) s0 EmptySeparator S0 I). apply t_split. reflexivity.
    + apply (One (XInteger 0%nat 1) s0 BadBase S0); [cbn; unfold INT_MIN, INT_MAX; lia|]. apply t_base. lia.
    + apply (One (XInteger 0%nat 10) s0 BadIntegerLiteral S0); [cbn; unfold INT_MIN, INT_MAX; lia|]. apply t_literal; [lia|].
      intros z (b1 & sg & t & b2 & ng & ds & E & _ & _ & _ & D & N & _). cbn in E.
      symmetry in E. apply app_eq_nil in E. destruct E as (_ & E). apply app_eq_nil in E. destruct E as (_ & E). apply app_eq_nil in E. destruct E as (-> & _).
      inversion D. congruence.
Qed.

(** ** Fractions *)
Theorem frac_texts : forall m, frac_text m <-> m = "Error: Divide by zero."%string.
Proof.
  intros m; split.
  - intros (fuel & prog & s & s' & ev & e & S & F & R & I & <-).
    assert (RS : frepresents s (fun v => qval (s v))) by (intros v; split; [auto|reflexivity]).
    destruct (frun_refines fuel prog s _ s' ev F RS R) as (a' & Q & _).
    assert (K : forall prog a a' ev, FracSpec.qrun prog a a' ev -> forall e, In (EThrow e) ev -> e = DivideByZero).
    { clear. assert (Op : forall o a b x, qop2 o a b (Throw x) -> x = DivideByZero) by (intros o a b x H; inversion H; auto).
      induction 1; intros e' I; [destruct I|]. apply in_app_or in I. destruct I as [I|I]; [|eauto].
      destruct H; cbn [In] in I; repeat (destruct I as [I|I]; [try discriminate I; injection I as <-; eauto|]); destruct I. }
    rewrite (K _ _ _ _ Q _ I). reflexivity.
  - intros ->. exists 1%nat, [FMake 0%nat 1 0], (fun _ => Frac 0 1), (fun _ => Frac 0 1), [EThrow DivideByZero], DivideByZero.
    split; [intros _; vm_compute; repeat split; congruence|]. split; [constructor; [cbn; split; unfold fits, INT_MIN, INT_MAX; lia|constructor]|].
    split; [reflexivity|]. split; [left; auto|auto].
Qed.

(** ** Integers *)
Theorem int_texts : forall m, int_text m <->
  In m ["Error: Wrong integer literal."; "Error: Divide by zero."; "Error: Negative integer have no factorial.";
        "Error: Cannot compute square root of a negative integer."; "Error: Math domain error."]%string.
Proof.
  intros m; split.
  - intros (prog & s & a & s' & a' & ev & e & S & R & _ & I & <-).
    assert (K : forall prog a a' ev, IntProgSpec.zrun prog a a' ev -> forall e, In (EThrow e) ev ->
      In e [WrongIntegerLiteral; DivideByZero; NegativeFactorial; NegativeSqrt; MathDomain]).
    { clear. assert (Un : forall o a x, zun o a (inr x) -> In x [WrongIntegerLiteral; DivideByZero; NegativeFactorial; NegativeSqrt; MathDomain])
        by (intros o a x H; inversion H; pick).
      assert (Bin : forall o a b x, zbin o a b (inr x) -> In x [WrongIntegerLiteral; DivideByZero; NegativeFactorial; NegativeSqrt; MathDomain])
        by (intros o a b x H; inversion H; pick).
      induction 1; intros e' I; [destruct I|]. apply in_app_or in I. destruct I as [I|I]; [|eauto].
      destruct H; repeat (destruct I as [I|I]; [try discriminate I; injection I as <-; eauto; pick|]); destruct I. }
    pose proof (K _ _ _ _ R _ I) as E. cbn [In] in E |- *. decompose [or] E; subst; cbn; auto 10.
  - assert (One : forall c s a e, represents s a -> IntProgSpec.zstep c a a [EThrow e] -> int_text (message e)).
    { intros c s a e S H. assert (R : IntProgSpec.zrun [c] a a ([EThrow e] ++ [])) by (econstructor; [exact H|constructor]).
      destruct (run_refines _ _ _ _ s R S) as (s' & C & _).
      exists [c], s, a, s', a, ([EThrow e] ++ []), e. split; auto. split; auto. split; auto. split; [left; auto|auto]. }
    assert (S0 : represents (fun _ => MkInt 0 []) (fun _ => 0)) by (intros v; apply repr_check; reflexivity).
    assert (S1 : represents (fun _ => MkInt (-1) [1]) (fun _ => -1)) by (intros v; apply repr_check; reflexivity).
    cbn [In]. intros [<-|[<-|[<-|[<-|[<-|[]]]]]].
    + apply (One (SChars 0%nat []) _ _ WrongIntegerLiteral S0). apply z_chars_bad. reflexivity.
    + apply (One (SBin BDiv 0%nat 0%nat 0%nat) _ _ DivideByZero S0). apply z_bin_throw. constructor.
    + apply (One (SUn UFactorial 0%nat 0%nat) _ _ NegativeFactorial S1). apply z_un_throw. constructor. lia.
    + apply (One (SUn USqrt 0%nat 0%nat) _ _ NegativeSqrt S1). apply z_un_throw. constructor. lia.
    + apply (One (SBin BLog 0%nat 0%nat 0%nat) _ _ MathDomain S0). apply z_bin_throw. constructor. lia.
Qed.
