(** More about comparisons that may throw: nothing is swallowed, and without exceptions all is as before. *)
From Coq Require Import ZArith List Bool Ascii Lia.
From Verif Require Import Outcome ListModel ListSpec ListFacts ListCallModel SetModel SetSpec SetFacts DictModel DictSpec
  TreeModel SetTreeModel DictTreeModel TreeSpec TreeFacts SetTree DictTree.
Import ListNotations.
Open Scope Z_scope.

(** ** Without exceptions *)
Section Quiet.
Lemma plain_app : forall X V (a b : list V), map (@Plain X V) (a ++ b) = map Plain a ++ map Plain b.
Proof. intros. apply map_app. Qed.

Theorem ucrun_quiet : forall (X T : Type) (lt : T -> T -> bool) show (may : X -> Prop) prog e e' ev, (forall x, ~ may x) ->
  ucrun lt show may prog e e' ev -> exists ev', ev = map Plain ev' /\ zrun lt show prog e e' ev'.
Proof.
  intros X T lt show may prog e e' ev N H. induction H as [e|c rest e e1 e2 ev1 ev2 H R IH].
  - exists []. split; auto. constructor.
  - destruct IH as (ev3 & -> & IH). destruct H as [c e e' ev Z|c e x C M|v a y b e x M|v w a y b e x VW EN M]; try (exfalso; eapply N; eassumption).
    exists (ev ++ ev3). rewrite plain_app. split; auto. econstructor; eauto.
Qed.
Theorem gcrun_quiet : forall (X K V : Type) (ltk : K -> K -> bool) (ltv : V -> V -> bool) showk showv (may : X -> Prop) prog e e' ev, (forall x, ~ may x) ->
  gcrun ltk ltv showk showv may prog e e' ev -> exists ev', ev = map Plain ev' /\ frun ltk ltv showk showv prog e e' ev'.
Proof.
  intros X K V ltk ltv showk showv may prog e e' ev N H. induction H as [e|c rest e e1 e2 ev1 ev2 H R IH].
  - exists []. split; auto. constructor.
  - destruct IH as (ev3 & -> & IH). destruct H as [c e e' ev Z|c e x C M|v a y b e m x EX M|v w a y b e m x VW EN EX M]; try (exfalso; eapply N; eassumption).
    exists (ev ++ ev3). rewrite plain_app. split; auto. econstructor; eauto.
Qed.
End Quiet.

(** ** Nothing is swallowed *)
Section Calm.
Context {S X : Type} (P : S -> Prop).

(** Without an exception of the client, [P] stays. *)
Definition calm {E A} (m : TM S X E A) : Prop := forall t q, P q -> match m (t, q) with (CThrow (inr _), _) => True | (_, (_, q')) => P q' end.
Definition steady {A B R} (c : A -> B -> call S X R) : Prop := forall a b q r, P q -> fst (c a b q) = inl r -> P (snd (c a b q)).

Lemma c_ret : forall E A (a : A), calm (E := E) (tret a).
Proof. intros E A a t q H. exact H. Qed.
Lemma c_bind : forall E A B (m : TM S X E A) (f : A -> TM S X E B), calm m -> (forall a, calm (f a)) -> calm (tbind m f).
Proof. intros E A B m f M F t q H. unfold tbind. specialize (M t q H). destruct (m (t, q)) as [[a|[x|x]|u] [t' q']]; auto. apply F. auto. Qed.
Lemma c_task : forall E A B R (c : A -> B -> call S X R) a b, steady c -> calm (E := E) (task (c a b)).
Proof. intros E A B R c a b H t q Q. unfold task. cbn [snd]. specialize (H a b q). destruct (c a b q) as [[r|x] q']; auto. apply (H r); auto. Qed.
Lemma c_get : forall E, calm (E := E) tget.
Proof. intros E t q H. exact H. Qed.
Lemma c_put : forall E n, calm (E := E) (tput n).
Proof. intros E n t q H. exact H. Qed.
Lemma c_elem : forall E i, calm (E := E) (telem i).
Proof. intros E i t q H. unfold telem. cbn [fst]. destruct (nth_error (elems t) i); exact H. Qed.
Lemma c_quiet : forall E A (o : outcome A), calm (E := E) (tquiet o).
Proof. intros E A o t q H. destruct o; exact H. Qed.
Lemma c_fresh : forall E F (m : TM S X F unit), calm m -> calm (E := E) (fresh m).
Proof. intros E F m M t q H. unfold fresh. cbn [snd]. specialize (M Leaf q H). destruct (m (Leaf, q)) as [[a|[x|x]|u] [t' q']]; auto. Qed.
Lemma c_plain : forall T A shape (n : M (list T) A), calm (set_plain shape n).
Proof. intros T A shape n t q H. unfold set_plain. cbn [fst snd]. destruct (n (elems t)) as [[a|x|u|] l]; exact H. Qed.

Create HintDb calm.
Ltac calms := cbv beta zeta; repeat match goal with
  | |- calm (tret _) => apply c_ret | |- calm tget => apply c_get | |- calm (tput _) => apply c_put | |- calm (telem _) => apply c_elem
  | |- calm (tquiet _) => apply c_quiet | |- calm (task _) => apply c_task; solve [auto with calm] | |- calm (set_plain _ _) => apply c_plain
  | |- calm (tbind _ _) => apply c_bind; [|intros ?] | |- calm (fresh _) => apply c_fresh
  | |- calm (if ?b then _ else _) => destruct b | |- calm (match ?x with _ => _ end) => destruct x end; auto with calm.

Section Tree.
Context {E K : Type} (key : E -> K) (less : K -> K -> call S X bool) (shape : tree E -> list E -> tree E).
Hypothesis L : steady less.
Lemma change_calm : forall l, calm (tchange shape l).
Proof. intros l. unfold tchange. calms. Qed.
Lemma lower_calm : forall t k lo y, calm (lower_calls key less t k lo y).
Proof. induction t as [|c l IL e r IR]; intros k lo y; cbn [lower_calls]; calms; auto. Qed.
Lemma upper_calm : forall t k lo y, calm (upper_calls key less t k lo y).
Proof. induction t as [|c l IL e r IR]; intros k lo y; cbn [upper_calls]; calms; auto. Qed.
Lemma range_calm : forall t k lo y, calm (range_calls key less t k lo y).
Proof. induction t as [|c l IL e r IR]; intros k lo y; cbn [range_calls]; calms; auto using lower_calm, upper_calm. Qed.
Lemma descend_calm : forall t k lo y b, calm (descend_calls key less t k lo y b).
Proof. induction t as [|c l IL e r IR]; intros k lo y b; cbn [descend_calls]; calms; auto. Qed.
Lemma find_calm : forall k, calm (find_tree key less k).
Proof. intros k. unfold find_tree. calms; auto using lower_calm. Qed.
Lemma pos_calm : forall k, calm (unique_pos key less k).
Proof. intros k. unfold unique_pos. calms; auto using descend_calm. Qed.
Lemma link_calm : forall e y, calm (link key less shape e y).
Proof. intros e y. unfold link. calms; auto using change_calm. Qed.
Lemma insert_calm : forall e, calm (insert_tree key less shape e).
Proof. intros e. unfold insert_tree. calms; auto using pos_calm, link_calm. Qed.
Lemma end_calm : forall e, calm (insert_end key less shape e).
Proof. intros e. unfold insert_end. calms; auto using insert_calm, link_calm. Qed.
Lemma all_calm : forall xs, calm (insert_all key less shape xs).
Proof. induction xs; cbn [insert_all]; calms; auto using end_calm. Qed.
Lemma erase_calm : forall k, calm (erase_tree key less shape k).
Proof.
  intros k. unfold erase_tree. apply c_bind; [apply c_get|intros t]. apply c_bind; [apply range_calm|intros [a z]].
  destruct (Nat.ltb z a); [intros ? ? H; exact H|]. calms; auto using change_calm.
Qed.
End Tree.

Section Set_.
Context {T : Type} (less eq : T -> T -> call S X bool) (show : T -> list ascii) (shape : tree T -> list T -> tree T).
Hypothesis L : steady less.
Hypothesis Q : steady eq.
Hint Resolve end_calm all_calm find_calm insert_calm erase_calm : calm.
Ltac both := let l := fresh "l" in let m := fresh "m" in let x := fresh "x" in let y := fresh "y" in let IL := fresh "IL" in let IM := fresh "IM" in
  intros l; induction l as [|x l IL]; [|intros m; induction m as [|y m IM]]; [intros [|y m]| |].
Lemma includes_calm : forall l m, calm (includes_calls less l m).
Proof. both; cbn [includes_calls]; calms; auto with calm. Qed.
Lemma intersection_calm : forall l m, calm (intersection_calls less shape l m).
Proof. both; cbn [intersection_calls]; calms; auto with calm. Qed.
Lemma union_calm : forall l m, calm (union_calls less shape l m).
Proof. both; cbn [union_calls]; calms; auto with calm. Qed.
Lemma difference_calm : forall l m, calm (difference_calls less shape l m).
Proof. both; cbn [difference_calls]; calms; auto with calm. Qed.
Lemma symmetric_calm : forall l m, calm (symmetric_calls less shape l m).
Proof. both; cbn [symmetric_calls]; calms; auto with calm. Qed.
Lemma same_calm : forall l m, calm (same_calls eq l m).
Proof. induction l as [|x l IL]; intros [|y m]; cbn [same_calls]; calms; auto. Qed.
Hint Resolve includes_calm intersection_calm union_calm difference_calm symmetric_calm same_calm : calm.

Definition quiet_events {V} (ev : list (cevent X V)) : Prop := forall x, ~ In (Caught x) ev.
Lemma ccall_calm : forall A (s : cstore T) q v (m : TM S X T A) save out s' q' ev, calm m -> P q ->
  ccall s q v m save out = Ok ((s', q'), ev) -> quiet_events ev -> P q'.
Proof.
  intros A s q v m save out s' q' ev M H E N. unfold ccall in E. specialize (M (s v) q H). destruct (m (s v, q)) as [[a|[x|x]|u] [t' q1]]; inversion E; subst; auto.
  exfalso. apply (N x). cbn. auto.
Qed.
Lemma cguard_calm : forall (s : cstore T) q n l r s' q' (ev : list (cevent X (tevent T))), P q -> cguard s q n l r = Ok ((s', q'), ev) -> (r = Ok ((s', q'), ev) -> P q') -> P q'.
Proof. intros s q n l r s' q' ev H E R. unfold cguard in E. destruct (n <=? INT_MAX - size l); auto. inversion E; subst; auto. Qed.
Lemma cstep_calm : forall c s q s' q' ev, P q -> cstep less eq show shape c (s, q) = Ok ((s', q'), ev) -> quiet_events ev -> P q'.
Proof.
  intros c s q s' q' ev H E N.
  destruct c; cbn [cstep] in E; try (inversion E; subst; assumption);
    try (eapply ccall_calm; [|eassumption|exact E|assumption]; unfold set_and_assign_calls, set_sub_assign_calls, set_of_calls, set_add_calls, set_remove_calls,
      set_and_calls, set_sub_calls, set_contains_calls, set_eq_calls, set_lt_calls, set_gt_calls, set_le_calls, set_ge_calls; calms; auto with calm);
    try (eapply cguard_calm; [eassumption|exact E|]; intros E').
  - destruct (Nat.eqb v w); inversion E; subst; auto.
  - eapply ccall_calm; [|eassumption|exact E'|assumption]. apply all_calm. auto.
  - destruct (Nat.eqb v w); [discriminate|]. eapply ccall_calm; [|eassumption|exact E'|assumption]. apply all_calm. auto.
  - eapply ccall_calm; [|eassumption|exact E'|assumption]. unfold set_or_calls. calms; auto with calm.
  - eapply ccall_calm; [|eassumption|exact E'|assumption]. unfold set_xor_calls. calms; auto with calm.
  - eapply ccall_calm; [|eassumption|exact E'|assumption]. unfold set_or_assign_calls, set_or_calls. calms; auto with calm.
  - eapply ccall_calm; [|eassumption|exact E'|assumption]. unfold set_xor_assign_calls, set_xor_calls. calms; auto with calm.
Qed.
Theorem crun_calm : forall prog s q s' q' ev, P q -> crun less eq show shape prog (s, q) = Ok ((s', q'), ev) -> quiet_events ev -> P q'.
Proof.
  induction prog as [|c prog IH]; intros s q s' q' ev H E N; cbn [crun] in E; [inversion E; subst; auto|].
  destruct (cstep less eq show shape c (s, q)) as [[[s1 q1] ev1]|?|?|] eqn:F; cbn [bind fst snd] in E; try discriminate.
  destruct (crun less eq show shape prog (s1, q1)) as [[[s2 q2] ev2]|?|?|] eqn:G; cbn [bind fst snd] in E; try discriminate. inversion E; subst.
  eapply IH; [|exact G|]; [|intros x I; apply (N x), in_or_app; auto]. eapply cstep_calm; [exact H|exact F|]. intros x I; apply (N x), in_or_app; auto.
Qed.
End Set_.

Section Dict_.
Context {K V : Type} (lessk eqk : K -> K -> call S X bool) (lessv eqv : V -> V -> call S X bool) (showk : K -> list ascii) (showv : V -> list ascii)
  (shape : tree (K * V) -> list (K * V) -> tree (K * V)) (shapek : tree K -> list K -> tree K) (shapev : tree V -> list V -> tree V).
Hypothesis LK : steady lessk.
Hypothesis QK : steady eqk.
Hypothesis LV : steady lessv.
Hypothesis QV : steady eqv.
Lemma then_steady : forall A (c : call S X bool) (f : bool -> call S X A), (forall q r, P q -> fst (c q) = inl r -> P (snd (c q))) ->
  (forall b q r, P q -> fst (f b q) = inl r -> P (snd (f b q))) -> forall q r, P q -> fst (cthen c f q) = inl r -> P (snd (cthen c f q)).
Proof. intros A c f C F q r H. unfold cthen. specialize (C q). destruct (c q) as [[b|x] q']; cbn [fst snd]; [|discriminate]. apply F. apply (C b); auto. Qed.
Lemma pair_less_steady : steady (pair_less lessk lessv).
Proof.
  intros a b. unfold pair_less. apply then_steady; [apply LK|]. intros [|]; [cbn; auto|]. apply then_steady; [apply LK|]. intros [|]; [cbn; auto|].
  apply then_steady; [apply LV|]. intros [|]; [cbn; auto|]. apply then_steady; [apply LV|]. cbn. auto.
Qed.
Lemma pair_eq_steady : steady (pair_eq eqk eqv).
Proof. intros a b. unfold pair_eq. apply then_steady; [apply QK|]. intros [|]; [apply QV|cbn; auto]. Qed.
Lemma adds_calm : forall F (less : F -> F -> call S X bool) sh (f : K * V -> F) d, steady less -> calm (add_all_calls less sh f d).
Proof. intros F less sh f d L. induction d as [|p d IH]; cbn [add_all_calls]; unfold set_add_calls; calms; auto. apply insert_calm. auto. Qed.
Hint Resolve end_calm all_calm find_calm insert_calm erase_calm adds_calm pair_less_steady pair_eq_steady same_calm : calm.

Lemma gcall_calm : forall A (s : cstore (K * V)) q v (m : TM S X (K * V) A) save out s' q' ev, calm m -> P q ->
  gcall s q v m save out = Ok ((s', q'), ev) -> quiet_events ev -> P q'.
Proof.
  intros A s q v m save out s' q' ev M H E N. unfold gcall in E. specialize (M (s v) q H). destruct (m (s v, q)) as [[a|[x|x]|u] [t' q1]]; inversion E; subst; auto.
  exfalso. apply (N x). cbn. auto.
Qed.
Lemma gguard_calm : forall (s : cstore (K * V)) q n l r s' q' (ev : list (cevent X (mevent K V))), P q -> gguard s q n l r = Ok ((s', q'), ev) -> (r = Ok ((s', q'), ev) -> P q') -> P q'.
Proof. intros s q n l r s' q' ev H E R. unfold gguard in E. destruct (n <=? INT_MAX - size l); auto. inversion E; subst; auto. Qed.
Lemma gstep_calm : forall c s q s' q' ev, P q -> gstep lessk eqk lessv eqv showk showv shape shapek shapev c (s, q) = Ok ((s', q'), ev) -> quiet_events ev -> P q'.
Proof.
  intros c s q s' q' ev H E N.
  destruct c; cbn [gstep] in E; try (inversion E; subst; assumption);
    try (eapply gcall_calm; [|eassumption|exact E|assumption]; unfold dict_of_calls, dict_get_calls, dict_contains_calls, dict_at_calls, dict_set_calls, dict_add_calls, dict_remove_calls,
      dict_keys_calls, dict_values_calls, dict_items_calls, dict_eq_calls; calms; try apply change_calm; auto with calm);
    try (eapply gguard_calm; [eassumption|exact E|]; intros E').
  - destruct (Nat.eqb v w); inversion E; subst; auto.
  - eapply gcall_calm; [|eassumption|exact E'|assumption]. apply all_calm. auto.
  - destruct (Nat.eqb v w); [discriminate|]. eapply gcall_calm; [|eassumption|exact E'|assumption]. apply all_calm. auto.
Qed.
Theorem grun_calm : forall prog s q s' q' ev, P q -> grun lessk eqk lessv eqv showk showv shape shapek shapev prog (s, q) = Ok ((s', q'), ev) -> quiet_events ev -> P q'.
Proof.
  induction prog as [|c prog IH]; intros s q s' q' ev H E N; cbn [grun] in E; [inversion E; subst; auto|].
  destruct (gstep lessk eqk lessv eqv showk showv shape shapek shapev c (s, q)) as [[[s1 q1] ev1]|?|?|] eqn:F; cbn [bind fst snd] in E; try discriminate.
  destruct (grun lessk eqk lessv eqv showk showv shape shapek shapev prog (s1, q1)) as [[[s2 q2] ev2]|?|?|] eqn:G; cbn [bind fst snd] in E; try discriminate. inversion E; subst.
  eapply IH; [|exact G|]; [|intros x I; apply (N x), in_or_app; auto]. eapply gstep_calm; [exact H|exact F|]. intros x I; apply (N x), in_or_app; auto.
Qed.
End Dict_.
End Calm.

(** ** What an exception leaves behind *)
Section Strong.
Context {S X T : Type} (less eq : T -> T -> call S X bool) (lt eqb : T -> T -> bool) (show : T -> list ascii) (shape : tree T -> list T -> tree T).
Hypothesis O : strict_total lt.
Hypothesis HL : honest less lt.
Hypothesis HE : honest eq eqb.
Hypothesis HS : keeps shape.
Notation may := (fun x => throws less x \/ throws eq x).

Lemma caught_not_plain : forall V (ev : list V) (x : X), ~ In (Caught x) (map Plain ev).
Proof. intros V ev x H. apply in_map_iff in H. destruct H as (y & E & _). discriminate. Qed.

Theorem cstep_strong : forall c s q e s' q' ev x, tstands lt s e -> cstep less eq show shape c (s, q) = Ok ((s', q'), ev) -> In (Caught x) ev ->
  (forall v xs, c <> TExtend v xs) -> (forall v w, c <> TExtendSet v w) ->
  ev = [Caught x] /\ (throws less x \/ throws eq x) /\ forall v, elems (s' v) = elems (s v).
Proof.
  intros c s q e s' q' ev x W E I N1 N2.
  destruct (cstep_ends may less eq lt eqb show shape O HL HE (fun x h => or_introl h) (fun x h => or_intror h) HS c s q e W)
    as [(s1 & q1 & s2 & ev1 & _ & R & _)|[(s1 & q1 & y & _ & M & R & L)|[(s1 & q1 & y & v & xs & a & z & b & C & _)|(u & _ & R)]]].
  - rewrite E in R. inversion R; subst. exfalso. eapply caught_not_plain; eauto.
  - rewrite E in R. inversion R; subst. destruct I as [I|[]]. inversion I; subst. auto.
  - exfalso. destruct C as [->|(w & _ & -> & _)]; [eapply N1|eapply N2]; reflexivity.
  - congruence.
Qed.
Theorem extend_prefix : forall v xs s q e s' q' ev x, tstands lt s e -> cstep less eq show shape (TExtend v xs) (s, q) = Ok ((s', q'), ev) -> In (Caught x) ev ->
  ev = [Caught x] /\ (throws less x \/ throws eq x) /\ (forall w, w <> v -> elems (s' w) = elems (s w)) /\
  exists a y b, xs = a ++ y :: b /\ forall z, In z (elems (s' v)) <-> In z (elems (s v)) \/ In z a.
Proof.
  intros v xs s q e s' q' ev x W E I.
  destruct (cstep_ends may less eq lt eqb show shape O HL HE (fun x h => or_introl h) (fun x h => or_intror h) HS (TExtend v xs) s q e W)
    as [(s1 & q1 & s2 & ev1 & _ & R & _)|[(s1 & q1 & y & C & _)|[(s1 & q1 & y & v1 & xs1 & a & z & b & C & Q & M & R & N & L)|(u & _ & R)]]].
  - rewrite E in R. inversion R; subst. exfalso. eapply caught_not_plain; eauto.
  - discriminate C.
  - destruct C as [C|(w & _ & C & _)]; [|discriminate]. inversion C; subst v1 xs1. rewrite E in R. inversion R; subst. destruct I as [I|[]]. inversion I; subst.
    split; auto. split; auto. split.
    + intros w NE. rewrite L. unfold tset. destruct (Nat.eqb_spec w v); [contradiction|auto].
    + exists a, z, b. split; auto. intros y. rewrite L. unfold tset. rewrite Nat.eqb_refl.
      destruct (insert_range_ok lt O a (elems (s v))) as (_ & K & _); [apply (W v)|]. rewrite K. tauto.
  - congruence.
Qed.
End Strong.

Section StrongDict.
Context {S X K V : Type} (lessk eqk : K -> K -> call S X bool) (lessv eqv : V -> V -> call S X bool) (ltk ekb : K -> K -> bool) (ltv evb : V -> V -> bool)
  (showk : K -> list ascii) (showv : V -> list ascii)
  (shape : tree (K * V) -> list (K * V) -> tree (K * V)) (shapek : tree K -> list K -> tree K) (shapev : tree V -> list V -> tree V).
Hypothesis OK : strict_total ltk.
Hypothesis OV : strict_total ltv.
Hypothesis HK : honest lessk ltk.
Hypothesis HV : honest lessv ltv.
Hypothesis QK : honest eqk ekb.
Hypothesis QV : honest eqv evb.
Hypothesis HS : keeps shape.
Hypothesis HSK : keeps shapek.
Hypothesis HSV : keeps shapev.
Notation may := (fun x => throws lessk x \/ throws eqk x \/ throws lessv x \/ throws eqv x).
Notation gstep := (gstep lessk eqk lessv eqv showk showv shape shapek shapev).
Let ends := gstep_ends may lessk eqk lessv eqv ltk ekb ltv evb showk showv shape shapek shapev OK OV HK HV QK QV
  (fun x h => or_introl h) (fun x h => or_intror (or_intror (or_introl h))) (fun x h => or_intror (or_introl h)) (fun x h => or_intror (or_intror (or_intror h))) HS HSK HSV.

Theorem gstep_strong : forall c s q e s' q' ev x, gstands ltk s e -> gstep c (s, q) = Ok ((s', q'), ev) -> In (Caught x) ev ->
  (forall v xs, c <> MExtend v xs) -> (forall v w, c <> MExtendDict v w) ->
  ev = [Caught x] /\ (throws lessk x \/ throws eqk x \/ throws lessv x \/ throws eqv x) /\ forall v, elems (s' v) = elems (s v).
Proof.
  intros c s q e s' q' ev x W E I N1 N2.
  destruct (ends c s q e W) as [(s1 & q1 & s2 & ev1 & _ & R & _)|[(s1 & q1 & y & _ & M & R & L)|[(s1 & q1 & y & v & xs & a & z & b & C & _)|(u & _ & R)]]].
  - rewrite E in R. inversion R; subst. exfalso. eapply caught_not_plain; eauto.
  - rewrite E in R. inversion R; subst. destruct I as [I|[]]. inversion I; subst. auto.
  - exfalso. destruct C as [->|(w & _ & -> & _)]; [eapply N1|eapply N2]; reflexivity.
  - congruence.
Qed.
Theorem dextend_prefix : forall v xs s q e s' q' ev x, gstands ltk s e -> gstep (MExtend v xs) (s, q) = Ok ((s', q'), ev) -> In (Caught x) ev ->
  ev = [Caught x] /\ (throws lessk x \/ throws eqk x \/ throws lessv x \/ throws eqv x) /\ (forall w, w <> v -> elems (s' w) = elems (s w)) /\
  exists a y b m, xs = a ++ y :: b /\ extended (e v) a m /\ listing ltk (elems (s' v)) m.
Proof.
  intros v xs s q e s' q' ev x W E I.
  destruct (ends (MExtend v xs) s q e W) as [(s1 & q1 & s2 & ev1 & _ & R & _)|[(s1 & q1 & y & C & _)|[(s1 & q1 & y & v1 & xs1 & a & z & b & C & Q & M & R & N & L)|(u & _ & R)]]].
  - rewrite E in R. inversion R; subst. exfalso. eapply caught_not_plain; eauto.
  - discriminate C.
  - destruct C as [C|(w & _ & C & _)]; [|discriminate]. inversion C; subst v1 xs1. rewrite E in R. inversion R; subst. destruct I as [I|[]]. inversion I; subst.
    split; auto. split; auto. split.
    + intros w NE. rewrite L. unfold mset. destruct (Nat.eqb_spec w v); [contradiction|auto].
    + destruct (DictFacts.range_ok ltk OK a (elems (s v)) (e v)) as (m & EX & LI & LE); [apply (W v)|].
      exists a, z, b, m. split; auto. split; auto. rewrite L. unfold mset. rewrite Nat.eqb_refl. auto.
  - congruence.
Qed.
End StrongDict.

(** extend is not all or nothing. *)
Theorem extend_partly : forall (T S X : Type) (less eq : T -> T -> call S X bool) show shape (a b : T) v (s : cstore T) q x, keeps shape ->
  elems (s v) = [] -> (forall y z q, exists q', less y z q = (inr x, q')) ->
  exists s' q', cstep less eq show shape (TExtend v [a; b]) (s, q) = Ok ((s', q'), [Caught x]) /\ elems (s' v) = [a].
Proof.
  intros T S X less eq show shape a b v s q x HS N L. cbn [cstep]. unfold cguard. rewrite N. cbn - [ccall].
  destruct (s v) as [|c l y r] eqn:Q; [|cbn in N; destruct (elems l); discriminate N].
  unfold ccall, set_extend_calls. rewrite Q. cbn [insert_all]. unfold insert_end at 1. unfold tbind, tget, tret. cbn [fst snd elems length Nat.eqb].
  unfold insert_tree, unique_pos, tbind, tget, tret, link, tchange, tput, insert_end. cbn [fst snd elems length Nat.eqb descend_calls tret].
  unfold tbind, tget, tret, tput, telem, task. cbn [fst snd]. rewrite !HS. cbn [elems length Nat.eqb nth_error Nat.sub fst snd]. rewrite !HS. cbn [elems length Nat.eqb nth_error Nat.sub fst snd].
  destruct (L a b q) as (q' & ->). cbn. do 2 eexists. split; [reflexivity|]. unfold cset. rewrite Nat.eqb_refl. apply HS.
Qed.
Theorem dextend_partly : forall (K V S X : Type) (lessk eqk : K -> K -> call S X bool) (lessv eqv : V -> V -> call S X bool) showk showv shape shapek shapev (a b : K * V) v (s : cstore (K * V)) q x, keeps shape ->
  elems (s v) = [] -> (forall y z q, exists q', lessk y z q = (inr x, q')) ->
  exists s' q', gstep lessk eqk lessv eqv showk showv shape shapek shapev (MExtend v [a; b]) (s, q) = Ok ((s', q'), [Caught x]) /\ elems (s' v) = [a].
Proof.
  intros K V S X less eq lv ev sk sv shape shk shv a b v s q x HS N L. cbn [gstep]. unfold gguard. rewrite N. cbn - [gcall].
  destruct (s v) as [|c l y r] eqn:Q; [|cbn in N; destruct (elems l); discriminate N].
  unfold gcall, dict_extend_calls. rewrite Q. cbn [insert_all]. unfold insert_end at 1. unfold tbind, tget, tret. cbn [fst snd elems length Nat.eqb].
  unfold insert_tree, unique_pos, tbind, tget, tret, link, tchange, tput, insert_end. cbn [fst snd elems length Nat.eqb descend_calls tret].
  unfold tbind, tget, tret, tput, telem, task. cbn [fst snd]. rewrite !HS. cbn [elems length Nat.eqb nth_error Nat.sub fst snd]. rewrite !HS. cbn [elems length Nat.eqb nth_error Nat.sub fst snd].
  destruct (L (fst a) (fst b) q) as (q' & ->). cbn. do 2 eexists. split; [reflexivity|]. unfold cset. rewrite Nat.eqb_refl. apply HS.
Qed.
