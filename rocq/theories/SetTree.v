(** Set programs with a comparison that may throw. *)
From Coq Require Import ZArith List Bool Ascii Lia.
From Verif Require Import Outcome ListModel ListSpec ListFacts ListCallModel SetModel SetSpec SetFacts SetProg TreeModel SetTreeModel TreeSpec TreeFacts UndefSpec UndefFacts.
Import ListNotations.
Open Scope Z_scope.

Section Set_.
Context {S X T : Type} (may : X -> Prop) (less eq : T -> T -> call S X bool) (lt eqb : T -> T -> bool) (show : T -> list ascii)
  (shape : tree T -> list T -> tree T).
Hypothesis O : strict_total lt.
Hypothesis D : decides eqb.
Hypothesis HL : honest less lt.
Hypothesis HE : honest eq eqb.
Hypothesis LM : forall x, throws less x -> may x.
Hypothesis EM : forall x, throws eq x -> may x.
Hypothesis HS : keeps shape.
Implicit Types (t : tree T) (l m : list T).
Notation id := (fun x : T => x).
Notation gives := (gives (S := S) may).
Notation runs := (runs (S := S) may).
Notation tells_of := (tells_of (S := S) may).

Lemma ord_id : forall l, increasing lt (map id l) <-> increasing lt l.
Proof. intros l. rewrite map_id. tauto. Qed.

Lemma inserted_std : forall x l b l', increasing lt l -> inserted id lt x l b l' -> std_insert lt x l = (b, l').
Proof.
  intros x l b l' I H. destruct (insert_ok lt O x l I) as (A & B & C & P & _). destruct (std_insert lt x l) as (b0, l0). cbn [fst snd] in *.
  assert (I': increasing lt l') by (apply ord_id; eapply inserted_ordered; eauto; apply ord_id; auto).
  destruct H as [(-> & a & c & (AC & _) & E & N)|(-> & -> & f & F & ->)].
  - f_equal.
    + apply C. intros Q. apply (N x Q). auto.
    + apply (inc_unique lt O); auto. intros y. rewrite B, E, AC, !in_app_iff. cbn. intuition congruence.
  - f_equal; auto. destruct b0; auto. exfalso. apply C; auto.
Qed.
Lemma filled_std : forall xs l l', increasing lt l -> filled id lt xs l l' -> std_insert_range lt xs l = l'.
Proof.
  intros xs l l' I F. induction F as [l|x xs l b l1 l2 H F IH]; auto. cbn [std_insert_range fold_left].
  rewrite (inserted_std _ _ _ _ I H). cbn [snd]. apply IH. apply ord_id. eapply inserted_ordered; eauto. apply ord_id. auto.
Qed.
Lemma filled_app : forall xs ys l l1 l2, filled id lt xs l l1 -> filled id lt ys l1 l2 -> filled id lt (xs ++ ys) l l2.
Proof. intros xs ys l l1 l2 F G. induction F; auto. cbn. econstructor; eauto. Qed.

Lemma g_end : forall t x, increasing lt (elems t) -> runs (insert_end id less shape x) t (fun _ t' => filled id lt [x] (elems t) (elems t') /\ increasing lt (elems t')) (fun _ => True).
Proof.
  intros t x I. eapply g_conseq; [apply (insert_end_gives may id less lt shape O HL LM HS); apply ord_id; auto| |auto]. cbn beta.
  intros _ t' (b & Q). split; [econstructor; eauto; constructor|]. apply ord_id. eapply inserted_ordered; eauto. apply ord_id. auto.
Qed.
Lemma g_all : forall t xs, increasing lt (elems t) -> runs (insert_all id less shape xs) t (fun _ t' => filled id lt xs (elems t) (elems t')) (fun _ => True).
Proof. intros t xs I. eapply g_conseq; [apply (all_gives may id less lt shape O HL LM HS); apply ord_id; auto|auto|auto]. Qed.
Lemma g_lt : forall t a b, tells_of (task (less a b)) t (fun r => r = lt a b).
Proof. intros. apply g_task; auto. Qed.
(** One element goes out, then the rest. *)
Lemma g_out : forall t x xs (m : TM S X T unit), increasing lt (elems t) ->
  (forall t', increasing lt (elems t') -> runs m t' (fun _ t2 => filled id lt xs (elems t') (elems t2)) (fun _ => True)) ->
  runs (_ <~ insert_end id less shape x ;; m) t (fun _ t' => filled id lt (x :: xs) (elems t) (elems t')) (fun _ => True).
Proof.
  intros t x xs m I H. eapply g_seq; [apply g_end; auto|]. cbn beta. intros _ t' (F & I'). eapply g_conseq; [apply H; auto| |auto]. cbn beta.
  intros _ t2 G. apply (filled_app [x] xs _ (elems t')); auto.
Qed.

Ltac ask := eapply g_bind; [apply g_lt|auto|]; intros ? ->.

Lemma intersection_runs : forall l m t, increasing lt (elems t) ->
  runs (intersection_calls less shape l m) t (fun _ t' => filled id lt (std_intersection lt l m) (elems t) (elems t')) (fun _ => True).
Proof.
  induction l as [|x l IL]; [intros [|y m] t I; apply g_ret; constructor|].
  induction m as [|y m IM]; intros t I; [apply g_ret; constructor|].
  cbn [intersection_calls std_intersection]. ask. destruct (lt x y); [apply IL; auto|]. ask. destruct (lt y x); [apply IM; auto|].
  apply g_out; auto.
Qed.
Lemma union_runs : forall l m t, increasing lt (elems t) ->
  runs (union_calls less shape l m) t (fun _ t' => filled id lt (std_union lt l m) (elems t) (elems t')) (fun _ => True).
Proof.
  induction l as [|x l IL]; [intros [|y m] t I; apply g_all; auto|].
  induction m as [|y m IM]; intros t I; [apply g_all; auto|].
  cbn [union_calls std_union]. ask. destruct (lt x y); [apply g_out; auto|]. ask. destruct (lt y x); [apply g_out; auto|]. apply g_out; auto.
Qed.
Lemma difference_runs : forall l m t, increasing lt (elems t) ->
  runs (difference_calls less shape l m) t (fun _ t' => filled id lt (std_difference lt l m) (elems t) (elems t')) (fun _ => True).
Proof.
  induction l as [|x l IL]; [intros [|y m] t I; apply g_ret; constructor|].
  induction m as [|y m IM]; intros t I; [apply g_all; auto|].
  cbn [difference_calls std_difference]. ask. destruct (lt x y); [apply g_out; auto|]. ask. destruct (lt y x); [apply IM; auto|]. apply IL; auto.
Qed.
Lemma symmetric_runs : forall l m t, increasing lt (elems t) ->
  runs (symmetric_calls less shape l m) t (fun _ t' => filled id lt (std_symmetric_difference lt l m) (elems t) (elems t')) (fun _ => True).
Proof.
  induction l as [|x l IL]; [intros [|y m] t I; apply g_all; auto|].
  induction m as [|y m IM]; intros t I; [apply g_all; auto|].
  cbn [symmetric_calls std_symmetric_difference]. ask. destruct (lt x y); [apply g_out; auto|]. ask. destruct (lt y x); [apply g_out; auto|]. apply IL; auto.
Qed.
Lemma includes_tells : forall l m t, tells_of (includes_calls less l m) t (fun b => b = std_includes lt l m).
Proof.
  induction l as [|x l IL]; intros [|y m] t; try (apply g_ret; auto).
  cbn [includes_calls std_includes]. ask. destruct (lt y x); [apply g_ret; auto|]. ask. destruct (lt x y); apply IL.
Qed.
Lemma same_tells : forall l m t, length l = length m -> tells_of (same_calls eq l m) t (fun b => b = all2 eqb l m).
Proof.
  induction l as [|x l IL]; intros [|y m] t L; try discriminate L; cbn [same_calls all2]; [apply g_ret; auto|].
  eapply g_bind; [apply g_task; eauto|auto|]. intros r ->. destruct (eqb x y); [apply IL; auto|apply g_ret; auto].
Qed.

(** ** The members *)
Lemma of_tells : forall xs t, tells_of (set_of_calls less shape xs) t (fun n => elems n = set_of lt xs).
Proof.
  intros xs t. eapply g_conseq; [apply (g_fresh may) with (G := fun _ => True) (P := fun _ t' => elems t' = set_of lt xs)| |auto]; [|cbn; tauto].
  eapply g_conseq; [apply (g_all Leaf)| |auto]; [constructor|]. cbn beta. intros _ t' F. symmetry. apply filled_std; auto. constructor.
Qed.
Lemma made_tells : forall (c : TM S X T unit) t xs, runs c Leaf (fun _ t' => filled id lt xs [] (elems t')) (fun _ => True) ->
  tells_of (fresh c) t (fun n => elems n = std_insert_range lt xs []).
Proof.
  intros c t xs R. eapply g_conseq; [apply (g_fresh may) with (G := fun _ => True) (P := fun _ t' => elems t' = std_insert_range lt xs [])| |auto]; [|cbn; tauto].
  eapply g_conseq; [exact R| |auto]. cbn beta. intros _ t' F. symmetry. apply filled_std; auto. constructor.
Qed.
Lemma and_tells : forall b t, tells_of (set_and_calls less shape b) t (fun n => elems n = set_and lt (elems t) b).
Proof. intros b t. unfold set_and_calls. eapply g_bind; [apply g_get|auto|]. intros t' ->. apply made_tells, (intersection_runs _ _ Leaf). constructor. Qed.
Lemma or_tells : forall b t, tells_of (set_or_calls less shape b) t (fun n => elems n = set_or lt (elems t) b).
Proof. intros b t. unfold set_or_calls. eapply g_bind; [apply g_get|auto|]. intros t' ->. apply made_tells, (union_runs _ _ Leaf). constructor. Qed.
Lemma sub_tells : forall b t, tells_of (set_sub_calls less shape b) t (fun n => elems n = set_sub lt (elems t) b).
Proof. intros b t. unfold set_sub_calls. eapply g_bind; [apply g_get|auto|]. intros t' ->. apply made_tells, (difference_runs _ _ Leaf). constructor. Qed.
Lemma xor_tells : forall b t, tells_of (set_xor_calls less shape b) t (fun n => elems n = set_xor lt (elems t) b).
Proof. intros b t. unfold set_xor_calls. eapply g_bind; [apply g_get|auto|]. intros t' ->. apply made_tells, (symmetric_runs _ _ Leaf). constructor. Qed.

Lemma assign_gives : forall (c : TM S X T (tree T)) t l, tells_of c t (fun n => elems n = l) -> gives (n <~ c ;; tput n) t (fun _ t' => elems t' = l).
Proof. intros c t l H. eapply g_bind; [exact H|auto|]. intros n N s. cbn. auto. Qed.

Lemma le_tells : forall b t, tells_of (set_le_calls less b) t (fun r => r = set_le lt (elems t) b).
Proof. intros b t. unfold set_le_calls. eapply g_bind; [apply g_get|auto|]. intros t' ->. apply includes_tells. Qed.
Lemma ge_tells : forall b t, tells_of (set_ge_calls less b) t (fun r => r = set_ge lt (elems t) b).
Proof. intros b t. unfold set_ge_calls. eapply g_bind; [apply g_get|auto|]. intros t' ->. apply includes_tells. Qed.
Lemma lt_tells : forall b t, tells_of (set_lt_calls less b) t (fun r => r = set_lt lt (elems t) b).
Proof.
  intros b t. unfold set_lt_calls, set_lt. eapply g_bind; [apply g_get|auto|]. intros t' ->. destruct (size (elems t) =? size b); cbn [negb andb].
  - apply g_ret. auto.
  - apply le_tells.
Qed.
Lemma gt_tells : forall b t, tells_of (set_gt_calls less b) t (fun r => r = set_gt lt (elems t) b).
Proof.
  intros b t. unfold set_gt_calls, set_gt, set_lt. eapply g_bind; [apply g_get|auto|]. intros t' ->. destruct (size b =? size (elems t)); cbn [negb andb].
  - apply g_ret. auto.
  - apply ge_tells.
Qed.
Lemma eq_tells : forall b t, tells_of (set_eq_calls eq b) t (fun r => r = set_eqb eqb (elems t) b).
Proof.
  intros b t. unfold set_eq_calls, set_eqb, list_eqb. eapply g_bind; [apply g_get|auto|]. intros t' ->. destruct (Nat.eqb_spec (length (elems t)) (length b)).
  - apply same_tells. auto.
  - apply g_ret. auto.
Qed.
Lemma contains_tells : forall x t, increasing lt (elems t) -> tells_of (set_contains_calls less x) t (fun r => r = set_contains lt (elems t) x).
Proof.
  intros x t I. unfold set_contains_calls. eapply g_bind; [apply (find_gives may id less lt O HL LM); apply ord_id; auto|auto|].
  cbn beta. intros o H. apply g_ret. split; auto. unfold set_contains. pose proof (contains_ok lt O x _ I) as C.
  destruct o as [j|]; symmetry.
  - apply C. destruct H as (a & f & b & -> & <- & _). apply in_or_app. cbn. auto.
  - destruct (std_contains lt x (elems t)); auto. exfalso. apply (H x); auto. apply C. auto.
Qed.
Lemma add_gives : forall x t, increasing lt (elems t) -> len (elems t) < INT_MAX ->
  gives (set_add_calls less shape x) t (fun b t' => std_insert lt x (elems t) = (b, elems t')).
Proof.
  intros x t I L. unfold set_add_calls. eapply g_bind; [apply g_get|auto|]. intros t' ->.
  eapply g_bind; [apply g_quiet with (a := tt)|auto|].
  - rewrite size_ok by lia. apply full_ok. lia.
  - intros _ _. eapply g_conseq; [apply (insert_gives may id less lt shape O HL LM HS); apply ord_id; auto| |auto]. cbn beta.
    intros b t' (H & _). apply inserted_std; auto.
Qed.
Lemma remove_gives : forall x t, increasing lt (elems t) ->
  gives (set_remove_calls less shape x) t (fun b t' => fst (std_erase lt x (elems t)) =? 1 = b /\ snd (std_erase lt x (elems t)) = elems t').
Proof.
  intros x t I. unfold set_remove_calls. eapply (g_last may _ _ _ _ (fun n => Nat.eqb n 1)); [apply (erase_gives may id less lt shape O HL LM HS); apply ord_id; auto|].
  cbn beta. intros n t' H. destruct (erase_ok lt O x _ I) as (A & B & C & _). destruct H as [(-> & a & f & c & Q & -> & Q')|(-> & -> & N)].
  - cbn. assert (H: In x (elems t)) by (rewrite Q; apply in_or_app; cbn; auto). split; [apply C; auto|].
    rewrite Q in I. apply (inc_app lt) in I. destruct I as (I1 & I2 & I3). apply (inc_cons lt) in I2. destruct I2 as (I2 & I4).
    apply (inc_unique lt O); auto.
    + rewrite Q'. apply (inc_app lt). split; auto. split; auto. intros y z Y Z. apply I3; cbn; auto.
    + intros y. rewrite B, Q, Q', !in_app_iff. cbn. split; [intros (N & [Y|[Y|Y]]); auto; congruence|]. intros [Y|Y]; split; auto; intros ->.
      * specialize (I3 x x Y (or_introl eq_refl)). rewrite (lt_irr lt O) in I3. discriminate.
      * specialize (I4 x Y). rewrite (lt_irr lt O) in I4. discriminate.
  - cbn. split.
    + destruct (fst (std_erase lt x (elems t)) =? 1); auto. exfalso. apply (N x); auto. apply C. auto.
    + apply (inc_unique lt O); auto. intros y. rewrite B. split; [tauto|]. intros Y. split; auto.
Qed.

(** ** Programs *)
Notation look s := (fun v => elems (s v)).
Notation cstep := (cstep less eq show shape).
Notation tstep := (tstep lt eqb show).

(** How a statement can end, compared with the sequences of SetModel.v. *)
Definition ends_as (c : tstmt T) (s : cstore T) (r : outcome ((cstore T * S) * list (cevent X (tevent T)))) : Prop :=
  (exists s' q' s1 ev, tstep c (look s) = Ok (s1, ev) /\ r = Ok ((s', q'), map Plain ev) /\ forall w, elems (s' w) = s1 w) \/
  (exists s' q' x, compares c = true /\ may x /\ r = Ok ((s', q'), [Caught x]) /\ forall w, elems (s' w) = elems (s w)) \/
  (exists s' q' x v xs a y b, (c = TExtend v xs \/ exists w, v <> w /\ c = TExtendSet v w /\ xs = elems (s w)) /\ xs = a ++ y :: b /\
     may x /\ r = Ok ((s', q'), [Caught x]) /\ len (elems (s v)) + len xs <= INT_MAX /\
     forall w, elems (s' w) = tset (look s) v (std_insert_range lt a (elems (s v))) w) \/
  (exists u, tstep c (look s) = UB u /\ r = UB u).

Lemma look_cset : forall (s : cstore T) v t w, elems (cset s v t w) = tset (look s) v (elems t) w.
Proof. intros s v t w. unfold cset, tset. destruct (Nat.eqb w v); auto. Qed.
Lemma tset_same : forall (s : tstore T) v l w, l = s v -> tset s v l w = s w.
Proof. intros s v l w ->. unfold tset. destruct (Nat.eqb_spec w v); subst; auto. Qed.
Lemma tset_twice : forall (s : tstore T) u v l k w, k = s v -> tset (tset s v k) u l w = tset s u l w.
Proof. intros s u v l k w ->. unfold tset. destruct (Nat.eqb_spec w u); auto. destruct (Nat.eqb_spec w v); subst; auto. Qed.

(** A member that changes its set. *)
Lemma ends_call : forall A (c : tstmt T) (s : cstore T) q v (m : TM S X T A) (n : M (list T) A) (out : A -> list (tevent T)), compares c = true ->
  tstep c (look s) = tcall (look s) v n out ->
  (exists e, n (elems (s v)) = (Throw e, elems (s v)) /\ m (s v, q) = (CThrow (inl e), (s v, q))) \/
  gives m (s v) (fun a t' => n (elems (s v)) = (Ok a, elems t')) ->
  ends_as c s (ccall s q v m kept out).
Proof.
  intros A c s q v m n out C E [(e & N & M)|G]; unfold ccall; unfold tcall in E.
  - rewrite M. rewrite N in E. left. do 4 eexists. split; [eassumption|]. split; [reflexivity|]. intros w. unfold kept. rewrite look_cset. auto.
  - specialize (G q). destruct (m (s v, q)) as [[a|[x|x]|u] [t' q']]; try contradiction.
    + rewrite G in E. left. do 4 eexists. split; [eassumption|]. split; [reflexivity|]. intros w. apply look_cset.
    + destruct G as (-> & G). right. left. do 3 eexists. split; auto. split; eauto. split; [reflexivity|]. intros w. unfold kept. rewrite look_cset. apply tset_same. auto.
Qed.
(** A member that only looks. *)
Lemma ends_look : forall A (c : tstmt T) (s : cstore T) q v (m : TM S X T A) (a : A) (ev : A -> tevent T), compares c = true ->
  tstep c (look s) = Ok (look s, [ev a]) -> tells_of m (s v) (fun b => b = a) ->
  ends_as c s (ccall s q v m kept (fun a => [ev a])).
Proof.
  intros A c s q v m a ev C E G; unfold ccall. specialize (G q). destruct (m (s v, q)) as [[b|[x|x]|u] [t' q']]; try contradiction.
  - destruct G as (-> & ->). left. do 4 eexists. split; [eassumption|]. split; [reflexivity|]. intros w. unfold kept. rewrite look_cset. apply tset_same. auto.
  - destruct G as (-> & G). right. left. do 3 eexists. split; auto. split; eauto. split; [reflexivity|]. intros w. unfold kept. rewrite look_cset. apply tset_same. auto.
Qed.
(** A member whose result goes to [u]. *)
Lemma ends_make : forall (c : tstmt T) (s : cstore T) q u v (m : TM S X T (tree T)) l, compares c = true ->
  tstep c (look s) = Ok (tset (look s) u l, []) -> tells_of m (s v) (fun n => elems n = l) ->
  ends_as c s (ccall s q v m (saved u) mute).
Proof.
  intros c s q u v m l C E G; unfold ccall. specialize (G q). destruct (m (s v, q)) as [[b|[x|x]|w] [t' q']]; try contradiction.
  - destruct G as (-> & G). left. do 4 eexists. split; [eassumption|]. split; [reflexivity|]. intros w. unfold saved. rewrite look_cset, <- G.
    unfold tset. destruct (Nat.eqb w u); auto. unfold cset. destruct (Nat.eqb_spec w v); subst; auto.
  - destruct G as (-> & G). right. left. do 3 eexists. split; auto. split; eauto. split; [reflexivity|]. intros w. unfold kept. rewrite look_cset. apply tset_same. auto.
Qed.
(** No comparison at all. *)
Lemma ends_plain : forall A (c : tstmt T) (s : cstore T) q v (n : M (list T) A) (out : A -> list (tevent T)),
  tstep c (look s) = tcall (look s) v n out -> (forall l e l', n l = (Throw e, l') -> l' = l) -> (forall l l', n l <> (OutOfFuel, l')) ->
  ends_as c s (ccall s q v (set_plain shape n) kept out).
Proof.
  intros A c s q v n out E H1 H2. unfold ccall, set_plain. cbn [fst snd]. unfold tcall in E. destruct (n (elems (s v))) as [[a|e|u|] l'] eqn:Q; cbn [tquiet].
  - left. do 4 eexists. split; [eassumption|]. split; [reflexivity|]. intros w. unfold kept. rewrite look_cset, HS. auto.
  - apply H1 in Q. subst l'. left. do 4 eexists. split; [eassumption|]. split; [reflexivity|]. intros w. unfold kept. rewrite look_cset. auto.
  - right. right. right. eauto.
  - exfalso. eapply H2; eauto.
Qed.
Lemma ends_quiet : forall A (c : tstmt T) (s : cstore T) q v (o : outcome A) (ev : A -> tevent T),
  tstep c (look s) = temit (look s) o ev -> o <> OutOfFuel ->
  ends_as c s (ccall s q v (tquiet o) kept (fun a => [ev a])).
Proof.
  intros A c s q v o ev E N. unfold ccall. unfold temit in E. destruct o as [a|e|u|]; cbn [tquiet]; try contradiction.
  - left. do 4 eexists. split; [eassumption|]. split; [reflexivity|]. intros w. unfold kept. rewrite look_cset. apply tset_same. auto.
  - left. do 4 eexists. split; [eassumption|]. split; [reflexivity|]. intros w. unfold kept. rewrite look_cset. apply tset_same. auto.
  - right. right. right. eauto.
Qed.
Lemma ends_guard : forall (c : tstmt T) (s : cstore T) q n l r k, tstep c (look s) = tguard (look s) n l k ->
  (n <=? INT_MAX - size l = true -> tstep c (look s) = k -> ends_as c s r) -> ends_as c s (cguard s q n l r).
Proof.
  intros c s q n l r k E H. unfold cguard, tguard in *. destruct (n <=? INT_MAX - size l); auto.
  left. do 4 eexists. split; [eassumption|]. split; [reflexivity|]. auto.
Qed.
Lemma ends_extend : forall (c : tstmt T) (s : cstore T) q v xs, increasing lt (elems (s v)) -> len (elems (s v)) + len xs <= INT_MAX ->
  (c = TExtend v xs \/ exists w, v <> w /\ c = TExtendSet v w /\ xs = elems (s w)) ->
  tstep c (look s) = tcall (look s) v (set_extend lt xs) tsilent ->
  ends_as c s (ccall s q v (set_extend_calls less shape xs) kept mute).
Proof.
  intros c s q v xs I L C E. unfold ccall, set_extend_calls. unfold tcall, set_extend in E. rewrite update_eq in E.
  pose proof (all_gives may id less lt shape O HL LM HS xs (s v)) as G. specialize (G (proj2 (ord_id _) I) q).
  destruct (insert_all id less shape xs (s v, q)) as [[a|[x|x]|u] [t' q']]; try contradiction.
  - apply filled_std in G; auto. left. do 4 eexists. split; [eassumption|]. split; [reflexivity|]. intros w. unfold kept. rewrite look_cset, G. auto.
  - destruct G as ((a & y & b & Q & G) & M). apply filled_std in G; auto. right. right. left. exists (cset s v t'), q', x, v, xs, a, y, b. rewrite G.
    repeat match goal with |- _ /\ _ => split end; auto. intros w. apply look_cset.
Qed.

Lemma cstep_ends : forall c s q e, tstands lt s e -> ends_as c s (cstep c (s, q)).
Proof.
  intros c s q e W.
  assert (SL: forall v, len (elems (s v)) <= INT_MAX) by (intros v; apply (W v)).
  assert (SI: forall v, increasing lt (elems (s v))) by (intros v; apply (W v)).
  assert (SZ: forall v, size (elems (s v)) = len (elems (s v))) by (intros v; apply size_ok; auto).
  destruct c; cbn [SetTreeModel.cstep].
  - apply (ends_make _ s q v v _ (set_of lt xs)); auto. apply of_tells.
  - left. do 4 eexists. split; [reflexivity|]. split; [reflexivity|]. intros u. apply look_cset.
  - destruct (Nat.eqb v w) eqn:Q.
    + right. right. right. exists SelfRange. cbn [SetModel.tstep]. rewrite Q. auto.
    + left. cbn [SetModel.tstep]. rewrite Q. do 4 eexists. split; [reflexivity|]. split; [reflexivity|]. intros u. rewrite look_cset. unfold tset. destruct (Nat.eqb u w); auto. apply look_cset.
  - apply (ends_call _ _ s q v _ (set_add lt x)); auto. destruct (Z.eq_dec (len (elems (s v))) INT_MAX) as [L|L].
    + left. exists ContainerFull. unfold set_add, set_add_calls. cbn [tbind tget fst]. rewrite SZ, full_throw by lia. auto.
    + right. assert (len (elems (s v)) < INT_MAX) by (pose proof (SL v); lia). eapply g_conseq; [apply add_gives; auto| |auto]. cbn beta.
      intros b t' Q. unfold set_add. rewrite SZ, full_ok, Q by lia. auto.
  - apply (ends_call _ _ s q v _ (set_remove lt x)); auto. right. eapply g_conseq; [apply remove_gives; auto| |auto]. cbn beta.
    intros b t' (Q & R). unfold set_remove. destruct (std_erase lt x (elems (s v))). cbn [fst snd] in *. subst. auto.
  - apply (ends_plain _ _ s q v set_pop); auto.
    + intros l x l'. unfold set_pop. destruct (check_empty (size l)); [destruct l| | |]; intros Q; inversion Q; auto.
    + intros l l'. unfold set_pop, check_empty. destruct (size l =? 0); [|destruct l]; discriminate.
  - eapply ends_guard; [reflexivity|]. intros L E. apply ends_extend; auto. rewrite SZ in L. apply Z.leb_le in L. lia.
  - eapply ends_guard; [reflexivity|]. intros L E. destruct (Nat.eqb_spec v w) as [->|N].
    + right. right. right. eauto.
    + apply ends_extend; auto; [|eauto]. rewrite !SZ in L. apply Z.leb_le in L. lia.
  - apply (ends_plain _ _ s q v set_clear); auto; unfold set_clear; intros l; [intros x|]; intros l'; rewrite update_eq; discriminate.
  - apply (ends_make _ s q u v _ (set_and lt (elems (s v)) (elems (s w)))); auto. apply and_tells.
  - eapply ends_guard; [reflexivity|]. intros L E. apply (ends_make _ s q u v _ (set_or lt (elems (s v)) (elems (s w)))); auto. apply or_tells.
  - apply (ends_make _ s q u v _ (set_sub lt (elems (s v)) (elems (s w)))); auto. apply sub_tells.
  - eapply ends_guard; [reflexivity|]. intros L E. apply (ends_make _ s q u v _ (set_xor lt (elems (s v)) (elems (s w)))); auto. apply xor_tells.
  - apply (ends_call _ _ s q v _ (set_and_assign lt (elems (s w)))); auto. right. unfold set_and_assign.
    eapply g_conseq; [apply assign_gives, and_tells| |auto]. cbn beta. intros [] t' ->. apply update_eq.
  - eapply ends_guard; [reflexivity|]. intros L E. apply (ends_call _ _ s q v _ (set_or_assign lt (elems (s w)))); auto. right. unfold set_or_assign.
    eapply g_conseq; [apply assign_gives, or_tells| |auto]. cbn beta. intros [] t' ->. apply update_eq.
  - apply (ends_call _ _ s q v _ (set_sub_assign lt (elems (s w)))); auto. right. unfold set_sub_assign.
    eapply g_conseq; [apply assign_gives, sub_tells| |auto]. cbn beta. intros [] t' ->. apply update_eq.
  - eapply ends_guard; [reflexivity|]. intros L E. apply (ends_call _ _ s q v _ (set_xor_assign lt (elems (s w)))); auto. right. unfold set_xor_assign.
    eapply g_conseq; [apply assign_gives, xor_tells| |auto]. cbn beta. intros [] t' ->. apply update_eq.
  - apply (ends_look _ _ s q v _ (set_contains lt (elems (s v)) x) TBool); auto. apply contains_tells; auto.
  - apply ends_quiet; auto. unfold set_min, check_empty. destruct (size _ =? 0); [discriminate|]. destruct (elems (s v)); discriminate.
  - apply ends_quiet; auto. unfold set_max, check_empty. destruct (size _ =? 0); [discriminate|]. destruct (rev _); discriminate.
  - left. do 4 eexists. split; [reflexivity|]. split; [reflexivity|]. auto.
  - left. do 4 eexists. split; [reflexivity|]. split; [reflexivity|]. auto.
  - apply (ends_look _ _ s q v _ (set_eqb eqb (elems (s v)) (elems (s w))) TBool); auto. apply eq_tells; auto.
  - apply (ends_look _ _ s q v _ (set_lt lt (elems (s v)) (elems (s w))) TBool); auto. apply lt_tells; auto.
  - apply (ends_look _ _ s q v _ (set_le lt (elems (s v)) (elems (s w))) TBool); auto. apply le_tells; auto.
  - apply (ends_look _ _ s q v _ (set_gt lt (elems (s v)) (elems (s w))) TBool); auto. apply gt_tells; auto.
  - apply (ends_look _ _ s q v _ (set_ge lt (elems (s v)) (elems (s w))) TBool); auto. apply ge_tells; auto.
  - left. do 4 eexists. split; [reflexivity|]. split; [reflexivity|]. auto.
  - left. do 4 eexists. split; [reflexivity|]. split; [reflexivity|]. auto.
Qed.

Lemma stands_ext : forall (s : cstore T) s1 e, stands lt s1 e -> (forall w, elems (s w) = s1 w) -> tstands lt s e.
Proof. intros s s1 e W E v. cbn beta. rewrite E. apply W. Qed.

Theorem cstep_ok : forall c s q e, tstands lt s e -> tint_stmt c ->
  match cstep c (s, q) with
  | Ok ((s', _), ev) => exists e', ucstep lt show may c e e' ev /\ tstands lt s' e'
  | UB _ => tundef c (look s)
  | _ => False
  end.
Proof.
  intros c s q e W A. destruct (cstep_ends c s q e W) as [(s' & q' & s1 & ev & E & -> & L)|[(s' & q' & x & C & M & -> & L)|[(s' & q' & x & v & xs & a & y & b & C & Q & M & -> & N & L)|(u & E & ->)]]].
  - assert (R: trun lt eqb show [c] (look s) = Ok (s1, ev ++ [])) by (cbn [trun]; rewrite E; auto).
    apply (trun_refines lt eqb show O D) with (e := e) in R; auto. destruct R as (e' & R & W'). rewrite app_nil_r in R.
    assert (Z: zstep lt show c e e' ev).
    { inversion R as [|c' r' e0 e1 e2 ev1 ev2 P P' EQ1 EQ2 EQ3 EQ4]. inversion P'. subst. rewrite app_nil_r. auto. }
    exists e'. split; [constructor; auto|eapply stands_ext; eauto].
  - exists e. split; [constructor; auto|]. eapply stands_ext; eauto.
  - assert (W': tstands lt s' (zset e v (either (e v) (fun z => In z a)))).
    { eapply stands_ext; [|exact L]. apply stands_set; auto.
      - apply (range_enum lt O). apply (W v).
      - destruct (insert_range_ok lt O a (elems (s v))) as (_ & _ & K); [apply (W v)|]. subst xs. unfold len in *. rewrite app_length in N. lia. }
    exists (zset e v (either (e v) (fun z => In z a))). split; auto. destruct C as [->|(w & VW & -> & ->)].
    + rewrite Q. econstructor; eauto.
    + eapply uc_extend_set; eauto. rewrite <- Q. apply (W w).
  - apply (tundef_exact T lt eqb show c (look s) e); eauto.
Qed.

Theorem crun_ok : forall prog s q e, tstands lt s e -> Forall tint_stmt prog ->
  match crun less eq show shape prog (s, q) with
  | Ok ((s', _), ev) => exists e', ucrun lt show may prog e e' ev /\ tstands lt s' e'
  | UB _ => exists c, In c prog /\ ((exists v, c = TMove v v) \/ (exists v, c = TExtendSet v v))
  | _ => False
  end.
Proof.
  induction prog as [|c prog IH]; intros s q e W A; cbn [crun].
  - exists e. split; [constructor|auto].
  - inversion A as [|? ? A1 A2]; subst. pose proof (cstep_ok c s q e W A1) as H. destruct (cstep c (s, q)) as [[[s1 q1] ev]|x|u|]; cbn [bind fst snd]; try contradiction.
    + destruct H as (e1 & H1 & W1). specialize (IH s1 q1 e1 W1 A2). destruct (crun less eq show shape prog (s1, q1)) as [[[s2 q2] ev2]|x|u|]; cbn [bind fst snd]; try contradiction.
      * destruct IH as (e2 & H2 & W2). exists e2. split; auto. econstructor; eauto.
      * destruct IH as (c' & I & R). exists c'. split; auto. cbn. auto.
    + exists c. split; [cbn; auto|]. destruct c; cbn [tundef] in H; try contradiction; [subst; left; eauto|destruct H; subst; right; eauto].
Qed.
End Set_.
