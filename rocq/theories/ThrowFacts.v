(** A call that throws leaves every object as it was. *)
From Coq Require Import String Ascii ZArith List Bool Lia.
From Verif Require Import Outcome Show IntModel IntProgModel FracModel FracProgModel StreamModel ListModel ListProgModel DequeModel SetModel DictModel
  ComplexModel.
Import ListNotations.
Open Scope Z_scope.

Definition keeps {S A} (m : M S A) : Prop := forall s e s', m s = (Throw e, s') -> s' = s.

Lemma update_keeps : forall T (f : list T -> outcome (list T)), keeps (update f).
Proof. intros T f s e s' H. unfold update in H. destruct (f s); congruence. Qed.

Ltac keep := intros s e s' H; repeat match type of H with
  | context [match ?x with _ => _ end] => destruct x eqn:?; try discriminate H
  end; try congruence.

Lemma set_keeps : forall T i (x : T), keeps (list_set i x).
Proof. intros T i x. unfold list_set. keep. Qed.
Lemma remove_keeps : forall T i, keeps (@list_remove T i).
Proof. intros T i. unfold list_remove. keep. Qed.
Lemma shr_keeps : forall T n, keeps (@list_shr T n).
Proof.
  intros T n s e s' H. unfold list_shr in H. destruct ((size s <=? 1) || (n =? 0)); [congruence|].
  destruct (if n <? 0 then chk32 (- n) else chk32 (size s - n)); try congruence. eapply update_keeps; exact H.
Qed.
Lemma map_keeps : forall S T (f : S -> T -> S * T) a, keeps (list_map f a).
Proof. intros S T f a. unfold list_map. keep. Qed.
Lemma deq_pop_back_keeps : forall T, keeps (@deq_pop_back T).
Proof. intros T. unfold deq_pop_back. keep. Qed.
Lemma deq_pop_front_keeps : forall T, keeps (@deq_pop_front T).
Proof. intros T. unfold deq_pop_front. keep. Qed.
Lemma deq_shr_keeps : forall T n, keeps (@deq_shr T n).
Proof.
  intros T n s e s' H. unfold deq_shr in H. destruct ((size s <=? 1) || (n =? 0)); [congruence|].
  destruct (if n <? 0 then chk32 (- n) else chk32 (size s - n)); try congruence. eapply update_keeps; exact H.
Qed.
Lemma set_add_keeps : forall T lt (x : T), keeps (set_add lt x).
Proof. intros T lt x. unfold set_add. keep. Qed.
Lemma set_remove_keeps : forall T lt (x : T), keeps (set_remove lt x).
Proof. intros T lt x. unfold set_remove. keep. Qed.
Lemma set_pop_keeps : forall T, keeps (@set_pop T).
Proof. intros T. unfold set_pop. keep. Qed.
Lemma dict_add_keeps : forall K V lt (k : K) (v : V), keeps (dict_add lt k v).
Proof. intros K V lt k v. unfold dict_add. keep. Qed.
Lemma dict_remove_keeps : forall K V lt (k : K), keeps (@dict_remove K V lt k).
Proof. intros K V lt k. unfold dict_remove. keep. Qed.
Lemma dict_pop_keeps : forall K V, keeps (@dict_pop K V).
Proof. intros K V. unfold dict_pop. keep. Qed.

(** ** Lists *)
Section L.
Context {T : Type} (eqb lt : T -> T -> bool) (show : T -> list ascii) (d : T).

Lemma lset_same : forall (s : lstore T) v w, lset s v (s v) w = s w.
Proof. intros s v w. unfold lset. destruct (Nat.eqb_spec w v); congruence. Qed.
Lemma call_keeps : forall A s v (m : M (list T) A) out s' ev e, keeps m -> (forall a e, ~ In (LThrow e) (out a)) ->
  call s v m out = Ok (s', ev) -> In (LThrow e) ev -> forall w, s' w = s w.
Proof.
  intros A s v m out s' ev e K O H I w. unfold call in H. destruct (m (s v)) as ([a|x|u|], v') eqn:E; try discriminate; injection H as <- <-.
  - destruct (O a e I).
  - rewrite (K _ _ _ E). apply lset_same.
Qed.
Lemma lassign_keeps : forall (s : lstore T) v o s' ev e, lassign s v o = Ok (s', ev) -> In (LThrow e) ev -> forall w, s' w = s w.
Proof. intros s v o s' ev e H I w. unfold lassign in H. destruct o; try discriminate; injection H as <- <-; [destruct I|auto]. Qed.
Lemma lemit_keeps : forall A (s : lstore T) (o : outcome A) f s' ev, lemit s o f = Ok (s', ev) -> forall w, s' w = s w.
Proof. intros A s o f s' ev H w. unfold lemit in H. destruct o; try discriminate; injection H as <- <-; auto. Qed.

Lemma list_throw : forall c s s' ev e, lstep eqb lt show d c s = Ok (s', ev) -> In (LThrow e) ev -> forall w, s' w = s w.
Proof.
  intros c s s' ev e H I. destruct c; cbn [lstep] in H;
    try (eapply lemit_keeps; eassumption); try (eapply lassign_keeps; eassumption);
    try (eapply call_keeps; [| |exact H|exact I]; [|first [intros ? ? [X|[]]; discriminate X | intros ? ? []]];
         first [apply update_keeps | apply set_keeps | apply remove_keeps | apply shr_keeps | apply map_keeps | idtac]).
  - injection H as <- <-. destruct I.
  - injection H as <- <-. destruct I.
  - destruct (Nat.eqb v w); [discriminate|]. injection H as <- <-. destruct I.
  - intros l x l' E. destruct (list_at l k); try congruence. eapply update_keeps. exact E.
  - destruct (size (s w) <=? INT_MAX - size (s v)).
    + destruct (Nat.eqb v w); [discriminate|].
      eapply call_keeps; [| |exact H|exact I]; [apply update_keeps|intros ? ? []].
    + injection H as <- <-. destruct I.
Qed.
End L.

(** ** Deques *)
Section D.
Context {T : Type} (eqb : T -> T -> bool) (show : T -> list ascii).

Lemma dset_same : forall (s : dstore T) v w, dset s v (s v) w = s w.
Proof. intros s v w. unfold dset. destruct (Nat.eqb_spec w v); congruence. Qed.
Lemma dcall_keeps : forall A s v (m : M (list T) A) out s' ev e, keeps m -> (forall a e, ~ In (DThrow e) (out a)) ->
  dcall s v m out = Ok (s', ev) -> In (DThrow e) ev -> forall w, s' w = s w.
Proof.
  intros A s v m out s' ev e K O H I w. unfold dcall in H. destruct (m (s v)) as ([a|x|u|], v') eqn:E; try discriminate; injection H as <- <-.
  - destruct (O a e I).
  - rewrite (K _ _ _ E). apply dset_same.
Qed.
Lemma demit_keeps : forall A (s : dstore T) (o : outcome A) f s' ev, demit s o f = Ok (s', ev) -> forall w, s' w = s w.
Proof. intros A s o f s' ev H w. unfold demit in H. destruct o; try discriminate; injection H as <- <-; auto. Qed.

Lemma deque_throw : forall c s s' ev e, dstep eqb show c s = Ok (s', ev) -> In (DThrow e) ev -> forall w, s' w = s w.
Proof.
  intros c s s' ev e H I. destruct c; cbn [dstep] in H;
    try (eapply demit_keeps; eassumption);
    try (eapply dcall_keeps; [| |exact H|exact I]; [|first [intros ? ? [X|[]]; discriminate X | intros ? ? []]];
         first [apply update_keeps | apply deq_pop_back_keeps | apply deq_pop_front_keeps | apply deq_shr_keeps]).
  - injection H as <- <-. destruct I.
  - injection H as <- <-. destruct I.
  - destruct (Nat.eqb v w); [discriminate|]. injection H as <- <-. destruct I.
  - destruct (size (s w) <=? INT_MAX - size (s v)).
    + destruct (Nat.eqb v w); [discriminate|].
      eapply dcall_keeps; [| |exact H|exact I]; [apply update_keeps|intros ? ? []].
    + injection H as <- <-. destruct I.
  - destruct (size (s w) <=? INT_MAX - size (s v)).
    + destruct (Nat.eqb v w); [discriminate|].
      eapply dcall_keeps; [| |exact H|exact I]; [apply update_keeps|intros ? ? []].
    + injection H as <- <-. destruct I.
Qed.
End D.

(** ** Sets *)
Section S.
Context {T : Type} (lt eqb : T -> T -> bool) (show : T -> list ascii).

Lemma tset_same : forall (s : tstore T) v w, tset s v (s v) w = s w.
Proof. intros s v w. unfold tset. destruct (Nat.eqb_spec w v); congruence. Qed.
Lemma tcall_keeps : forall A s v (m : M (list T) A) out s' ev e, keeps m -> (forall a e, ~ In (TThrow e) (out a)) ->
  tcall s v m out = Ok (s', ev) -> In (TThrow e) ev -> forall w, s' w = s w.
Proof.
  intros A s v m out s' ev e K O H I w. unfold tcall in H. destruct (m (s v)) as ([a|x|u|], v') eqn:E; try discriminate; injection H as <- <-.
  - destruct (O a e I).
  - rewrite (K _ _ _ E). apply tset_same.
Qed.
Lemma temit_keeps : forall A (s : tstore T) (o : outcome A) f s' ev, temit s o f = Ok (s', ev) -> forall w, s' w = s w.
Proof. intros A s o f s' ev H w. unfold temit in H. destruct o; try discriminate; injection H as <- <-; auto. Qed.

Lemma set_throw : forall c s s' ev e, tstep lt eqb show c s = Ok (s', ev) -> In (TThrow e) ev -> forall w, s' w = s w.
Proof.
  intros c s s' ev e H I. destruct c; cbn [tstep] in H; unfold tguard in H;
    repeat match type of H with
    | (if ?b then _ else _) = _ => destruct b; try discriminate H; try (injection H as <- <-; destruct I; fail)
    end;
    try (eapply temit_keeps; eassumption);
    try (injection H as <- <-; destruct I; fail);
    try (eapply tcall_keeps; [| |exact H|exact I]; [|first [intros ? ? [X|[]]; discriminate X | intros ? ? []]];
         first [apply update_keeps | apply set_add_keeps | apply set_remove_keeps | apply set_pop_keeps]).
  injection H as <- <-. auto.
Qed.
End S.

(** ** Dictionaries *)
Section M.
Context {K V : Type} (ltk eqk : K -> K -> bool) (ltv eqv : V -> V -> bool) (showk : K -> list ascii) (showv : V -> list ascii).

Lemma mset_same : forall (s : mstore K V) v w, mset s v (s v) w = s w.
Proof. intros s v w. unfold mset. destruct (Nat.eqb_spec w v); congruence. Qed.
Lemma mcall_keeps : forall A s v (m : M (list (K * V)) A) out s' ev e, keeps m -> (forall a e, ~ In (MThrow e) (out a)) ->
  mcall s v m out = Ok (s', ev) -> In (MThrow e) ev -> forall w, s' w = s w.
Proof.
  intros A s v m out s' ev e Kp O H I w. unfold mcall in H. destruct (m (s v)) as ([a|x|u|], v') eqn:E; try discriminate; injection H as <- <-.
  - destruct (O a e I).
  - rewrite (Kp _ _ _ E). apply mset_same.
Qed.
Lemma memit_keeps : forall A (s : mstore K V) (o : outcome A) f s' ev, memit s o f = Ok (s', ev) -> forall w, s' w = s w.
Proof. intros A s o f s' ev H w. unfold memit in H. destruct o; try discriminate; injection H as <- <-; auto. Qed.

Lemma dict_throw : forall c s s' ev e, mstep ltk eqk ltv eqv showk showv c s = Ok (s', ev) -> In (MThrow e) ev -> forall w, s' w = s w.
Proof.
  intros c s s' ev e H I. destruct c; cbn [mstep] in H; unfold mguard in H;
    repeat match type of H with
    | (if ?b then _ else _) = _ => destruct b; try discriminate H; try (injection H as <- <-; destruct I; fail)
    end;
    try (eapply memit_keeps; eassumption);
    try (injection H as <- <-; destruct I; fail);
    try (eapply mcall_keeps; [| |exact H|exact I]; [|first [intros ? ? [X|[]]; discriminate X | intros ? ? []]];
         first [apply update_keeps | apply dict_add_keeps | apply dict_remove_keeps | apply dict_pop_keeps]).
  injection H as <- <-. auto.
Qed.
End M.

(** ** Int and Fraction *)
Lemma assign_keeps : forall s v o s' ev e, assign s v o = Ok (s', ev) -> In (EThrow e) ev -> forall w, s' w = s w.
Proof. intros s v o s' ev e H I w. unfold assign in H. destruct o; try discriminate; injection H as <- <-; [destruct I|auto]. Qed.
Lemma store_same : forall s v w, set s v (s v) w = s w.
Proof. intros s v w. unfold set. destruct (Nat.eqb_spec w v); congruence. Qed.
Lemma int_throw : forall p fuel c s s' ev e, step p fuel c s = Ok (s', ev) -> In (EThrow e) ev -> forall w, s' w = s w.
Proof.
  intros p fuel c s s' ev e H I.
  assert (M1: forall v r, (forall e x, r = (Throw e, x) -> x = s v) -> assign_mut s v r = Ok (s', ev) -> forall w, s' w = s w).
  { intros v r K H' w. unfold assign_mut in H'. destruct r as ([a|x|u|], y); try discriminate; injection H' as <- <-; [destruct I|].
    rewrite (K x y eq_refl). apply store_same. }
  destruct c; cbn [step] in H; try (eapply assign_keeps; eassumption).
  - injection H as <- <-. destruct I.
  - destruct (Nat.eqb v w); [discriminate|]. destruct (int_move (s w)). injection H as <- <-. destruct I.
  - destruct o; try (eapply assign_keeps; eassumption); eapply M1; try exact H; unfold int_div_assign, int_mod_assign;
      intros x y E; repeat match type of E with context [match ?x with _ => _ end] => destruct x eqn:?; try discriminate E end; congruence.
  - unfold bind in H. destruct (eval_cmp o (s v) (s w)); try discriminate. injection H as <- <-. auto.
  - unfold bind in H. destruct (eval_query p fuel o (s v)); try discriminate. injection H as <- <-. auto.
  - unfold bind in H. destruct (int_digits (s v)); try discriminate. injection H as <- <-. auto.
  - injection H as <- <-. auto.
Qed.

Lemma fassign_keeps : forall s v o s' ev e, fassign s v o = Ok (s', ev) -> In (EThrow e) ev -> forall w, s' w = s w.
Proof. intros s v o s' ev e H I w. unfold fassign in H. destruct o; try discriminate; injection H as <- <-; [destruct I|auto]. Qed.
Lemma fraction_throw : forall fuel c s s' ev e, fstep fuel c s = Ok (s', ev) -> In (EThrow e) ev -> forall w, s' w = s w.
Proof.
  intros fuel c s s' ev e H I.
  assert (M1: forall v op x y, x = s v -> fassign_mut s v (frac_assign op x y) = Ok (s', ev) -> forall w, s' w = s w).
  { intros v op x y -> H' w. unfold fassign_mut, frac_assign in H'. destruct (op (s v) y); try discriminate; injection H' as <- <-; [destruct I|].
    unfold fset. destruct (Nat.eqb_spec w v); congruence. }
  destruct c; cbn [fstep] in H; try (eapply fassign_keeps; eassumption); try (eapply M1; [|exact H]; reflexivity).
  - injection H as <- <-. destruct I.
  - destruct (frac_move (s w)). injection H as <- <-. destruct I.
  - unfold bind in H. destruct (frac_ord o (s v) (s w)); try discriminate. injection H as <- <-. auto.
  - injection H as <- <-. auto.
  - injection H as <- <-. auto.
Qed.

(** ** Extraction and Complex *)
Ltac keep_target H := repeat match type of H with
  | context [match ?x with _ => _ end] => destruct x eqn:?; try discriminate H
  end; try (injection H; intros; subst; auto; fail).

Lemma int_extract_keeps : forall s x e s' x', int_extract s x = (Throw e, (s', x')) -> x' = x.
Proof. intros s x e s' x' H. unfold int_extract in H. keep_target H. Qed.
Lemma frac_extract_keeps : forall fuel s f e s' f', frac_extract fuel s f = (Throw e, (s', f')) -> f' = f.
Proof. intros fuel s f e s' f' H. unfold frac_extract in H. keep_target H. Qed.
Lemma cx_extract_keeps : forall strtod fuel s z e s' z', cx_extract strtod fuel s z = (Throw e, (s', z')) -> z' = z.
Proof. intros strtod fuel s z e s' z' H. unfold cx_extract in H. keep_target H. Qed.
Lemma cx_assign_keeps : forall op a b e a', cx_assign op a b = (Throw e, a') -> a' = a.
Proof. intros op a b e a' H. unfold cx_assign in H. keep_target H. Qed.
