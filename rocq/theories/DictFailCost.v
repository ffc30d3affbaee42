(** Dicts whose copies of keys and values and whose allocations may throw: numbers of events, exact remains, witnesses. *)
From Coq Require Import ZArith List Bool Ascii Lia.
From Verif Require Import IntMemSpec Outcome ListModel SetModel DictModel ListSpec SetSpec DictSpec ListFacts FailModel FailRunModel FailRunSpec FailCost SetFailModel DictFailModel DictFailSpec SetFacts DictFacts DictProg SetFailCost DictFail.
Import ListNotations.
Open Scope Z_scope.

Section Counts.
Context {K V : Type}.
Variables (ok : nat -> bool) (ltk eqk : K -> K -> bool) (ltv eqv : V -> V -> bool) (showk : K -> list ascii) (showv : V -> list ascii).
Notation dict := (list (K * V)).
Notation step := (fmstep ok ltk eqk ltv eqv showk showv).

Lemma minsert_length : forall k x (l : dict), length (snd (map_insert ltk k x l)) = (length l + if fst (map_insert ltk k x l) then 1 else 0)%nat.
Proof.
  intros k x l. unfold map_insert. destruct (map_lower ltk k l) as (a, b) eqn:E. apply map_lower_ok in E. destruct E as (-> & _).
  destruct b as [|y b]; [cbn [fst snd]; rewrite !app_length; cbn; lia|].
  destruct (ltk k (fst y)); cbn [fst snd]; rewrite ?app_length; cbn; lia.
Qed.

(** Each entry that comes in is paid for with [c] events. *)
Definition mpaid (c k : nat) (l : dict) (k' : nat) (l' : dict) : Prop :=
  (k' + c * length l = k + c * length l' /\ length l <= length l')%nat.
Lemma kwp_minsert : forall n j x l k (Q : nat -> bool -> dict -> Prop),
  (forall k' b l', mpaid n k l k' l' -> Q k' b l') -> kwp (fm_insert ok ltk n j x) l k Q.
Proof.
  intros n j x l k Q H. unfold fm_insert. apply kwp_bind, kwp_get. pose proof (minsert_length j x l) as L. destruct (map_insert ltk j x l) as [[|] l']; cbn [fst snd] in L.
  - apply kwp_bind, kwp_events, kwp_bind, kwp_put, kwp_ret, H. split; nia.
  - apply kwp_ret, H. split; lia.
Qed.
Lemma kwp_mrange : forall xs l k (Q : nat -> unit -> dict -> Prop),
  (forall k' l', mpaid 3 k l k' l' -> Q k' tt l') -> kwp (fm_insert_range ok ltk xs) l k Q.
Proof.
  induction xs as [|x xs IH]; intros l k Q H; cbn [fm_insert_range].
  - apply kwp_ret, H. split; lia.
  - apply kwp_bind, kwp_minsert. intros k1 b l1 P1. apply IH. intros k2 l2 P2. apply H. unfold mpaid in *. lia.
Qed.
Lemma kwp_add_all : forall X cost (lt : X -> X -> bool) f (d : dict) l k (Q : nat -> unit -> list X -> Prop),
  (forall k' l', paid cost k l k' l' -> Q k' tt l') -> kwp (fm_add_all ok cost lt f d) l k Q.
Proof.
  intros X cost lt f. induction d as [|p d IH]; intros l k Q H; cbn [fm_add_all].
  - apply kwp_ret, H. split; lia.
  - apply kwp_bind. unfold fs_add. apply kwp_bind, kwp_get, kwp_bind, kwp_lift. intros _ _. apply kwp_insert. intros k1 b l1 P1. apply IH.
    intros k2 l2 P2. apply H. unfold paid in *. lia.
Qed.
Lemma kwp_view : forall St X cost (lt : X -> X -> bool) f (d : dict) (s : St) k (Q : nat -> list X -> St -> Prop),
  (forall r, Q (k + S cost * length r)%nat r s) -> kwp (fm_view ok cost lt f d) s k Q.
Proof.
  intros St X cost lt f d s k Q H. apply kwp_bind, kwp_local, kwp_add_all. intros k' l' (P & _). cbn [length] in P. apply kwp_ret. cbn [snd].
  replace k' with (k + S cost * length l')%nat by lia. apply H.
Qed.

Theorem mcounted : forall c s k s' k' ev, step c s k = Ok (s', k', ev) -> calm MThrow ev -> k' = (k + mevent_count c s s' (length ev))%nat.
Proof.
  intros c s k s' k' ev E N.
  assert (CA : meventless c -> k' = k).
  { intros X. pose proof (mno_events ok ltk eqk ltv eqv showk showv c s k X) as H. rewrite E in H. tauto. }
  assert (EXT : forall v xs, on_object MThrow s v k (fm_extend ok ltk xs) msilent = Ok (s', k', ev) -> k' = (k + 3 * (length (s' v) - length (s v)))%nat).
  { intros v xs X. assert (P : mpaid 3 k (s v) k' (s' v)).
    { refine (call_counts MThrow _ _ s v k msilent s' k' ev (fun n r => mpaid 3 k (s v) n r) _ X N). apply kwp_mrange. auto. }
    destruct P as (P1 & P2). nia. }
  assert (LOOK : forall o, looking MThrow s k (x <~ xlift o ;; xevent ok ;~ xret x) (fun x : K => [MKey x]) = Ok (s', k', ev) -> k' = (k + 1)%nat).
  { intros o X. assert (P : exists a : K, k' = (k + 1)%nat /\ ev = map Saw [MKey a]).
    { refine (look_counts MThrow _ _ s k (fun x : K => [MKey x]) s' k' ev (fun n _ => n = (k + 1)%nat) _ X N).
      apply kwp_bind, kwp_lift. intros x _. apply kwp_bind, kwp_event, kwp_ret. lia. }
    destruct P as (_ & P & _). exact P. }
  assert (VIEW : forall X cost (lt : X -> X -> bool) f (out : X -> mevent K V) v,
    looking MThrow s k (fm_view ok cost lt f (s v)) (map out) = Ok (s', k', ev) -> k' = (k + S cost * length ev)%nat).
  { intros X cost lt f out v L. assert (P : exists a : list X, k' = (k + S cost * length a)%nat /\ ev = map Saw (map out a)).
    { refine (look_counts MThrow _ _ s k (map out) s' k' ev (fun n a => n = (k + S cost * length a)%nat) _ L N). apply kwp_view. reflexivity. }
    destruct P as (a & P & ->). rewrite !map_length. exact P. }
  destruct c as [v xs|v w|v w|v j|v j x|v j x|v j|v j x|v j|v|v xs|v w|v|v|v|v|v|v|v|v|v w|v|v];
    cbn [mevent_count]; try (rewrite Nat.add_0_r; apply CA; exact Logic.I); cbn [fmstep] in E.
  - refine (new_counts MThrow _ s v k s' k' ev (fun n r => n = (k + 3 * length r)%nat) _ E N).
    apply kwp_bind, kwp_local, kwp_mrange. intros k2 l2 (P & _). cbn [length] in P. apply kwp_ret. cbn [snd]. lia.
  - destruct (Nat.eqb v w) eqn:W; [injection E as _ <- _; lia|].
    refine (call_counts MThrow _ _ s v k msilent s' k' ev (fun n _ => n = (k + (2 * length (s w) + (length (s w) - length (s v))))%nat) _ E N).
    apply kwp_bind, kwp_get, kwp_bind, kwp_put, kwp_bind, kwp_clone, kwp_put. reflexivity.
  - refine (call_counts MThrow _ _ s v k msilent s' k' ev (fun n _ => n = (k + 1)%nat) _ E N).
    apply kwp_bind, kwp_get, kwp_bind, kwp_lift. intros y _. apply kwp_bind, kwp_event, kwp_calm. intros. lia.
  - assert (P : mpaid 2 (k + 2) (s v) k' (s' v)).
    { refine (call_counts MThrow _ _ s v k (fun b => [MBool b]) s' k' ev (fun n r => mpaid 2 (k + 2) (s v) n r) _ E N).
      apply kwp_bind, kwp_get, kwp_bind, kwp_lift. intros _ _. apply kwp_bind, kwp_events, kwp_minsert. auto. }
    destruct P as (P1 & P2). lia.
  - refine (call_counts MThrow _ _ s v k (fun x => [MPair x]) s' k' ev (fun n _ => n = (k + 2)%nat) _ E N).
    apply kwp_bind, kwp_get, kwp_bind, kwp_lift. intros _ _. destruct (s v) as [|x a]; [apply kwp_lift; discriminate|].
    apply kwp_bind, kwp_put, kwp_bind, kwp_events, kwp_ret. reflexivity.
  - unfold fm_guard in E. destruct (_ <=? _); [exact (EXT _ _ E)|]. injection E as <- <- _. lia.
  - unfold fm_guard in E. destruct (_ <=? _); [|injection E as <- <- _; lia]. destruct (Nat.eqb v w); [discriminate|]. exact (EXT _ _ E).
  - exact (LOOK _ E).
  - exact (LOOK _ E).
  - exact (VIEW _ _ _ _ _ _ E).
  - exact (VIEW _ _ _ _ _ _ E).
  - exact (VIEW _ _ _ _ _ _ E).
Qed.

(** ** Exact remains *)
Lemma mrange_length : forall xs l : dict, (length l <= length (map_insert_range ltk xs l))%nat.
Proof.
  unfold map_insert_range. induction xs as [|x xs IH]; intros l; cbn [fold_left]; [lia|]. specialize (IH (snd (map_insert ltk (fst x) (snd x) l))).
  pose proof (minsert_length (fst x) (snd x) l). lia.
Qed.
Lemma run_mrange_fail : forall (pre : dict) p post l k j, fst (map_insert ltk (fst p) (snd p) (map_insert_range ltk pre l)) = true -> (j < 3)%nat ->
  forall n, n = (k + 3 * (length (map_insert_range ltk pre l) - length l) + j)%nat -> plenty ok k n -> ok n = false ->
  fm_insert_range ok ltk (pre ++ p :: post) l k = (XErr (XFail n), map_insert_range ltk pre l, S n).
Proof.
  induction pre as [|y pre IH]; intros x post l k j X J n En P F.
  - cbn [app fm_insert_range]. change (map_insert_range ltk [] l) with l in *. unfold xbind at 1. unfold fm_insert. unfold xbind at 1, xget.
    destruct (map_insert ltk (fst x) (snd x) l) as [b l'] eqn:I. cbn [fst] in X. subst b.
    replace n with (k + j)%nat in * by lia. unfold xbind at 1. rewrite (run_events_fail ok 3 j) by assumption. reflexivity.
  - change (map_insert_range ltk (y :: pre) l) with (map_insert_range ltk pre (snd (map_insert ltk (fst y) (snd y) l))) in *.
    pose proof (minsert_length (fst y) (snd y) l) as L. pose proof (mrange_length pre (snd (map_insert ltk (fst y) (snd y) l))) as R.
    pose proof (minsert_not ltk (fst y) (snd y) l) as NI.
    cbn [app fm_insert_range]. unfold xbind at 1. unfold fm_insert. unfold xbind at 1, xget.
    destruct (map_insert ltk (fst y) (snd y) l) as [[|] l'] eqn:I; cbn [fst snd] in *.
    + unfold xbind at 1. rewrite run_events_ok by (intros i H; apply P; lia). unfold xbind at 1, xput, xret. apply (IH x post l' (k + 3)%nat j X J); [lia| |exact F].
      intros i H. apply P. lia.
    + specialize (NI eq_refl). subst l'. unfold xret. apply (IH x post l k j X J); [exact En|exact P|exact F].
Qed.

Theorem mpop_stopped : forall v s k j p a, s v = p :: a -> Z.of_nat (length (s v)) <= INT_MAX -> (j < 2)%nat ->
  plenty ok k (k + j)%nat -> ok (k + j)%nat = false ->
  step (MPop v) s k = Ok (mset s v a, S (k + j), [Failed (k + j)]).
Proof.
  intros v s k j p a E L J P F. cbn [fmstep]. unfold on_object, fm_pop. unfold xbind at 1, xget. unfold xbind at 1, xlift.
  rewrite size_ok by exact L. rewrite E. unfold check_empty. rewrite len_cons.
  assert (0 <= len a) by (unfold len; lia). destruct (Z.eqb_spec (1 + len a) 0) as [X|X]; [lia|].
  unfold xbind at 1, xput. unfold xbind at 1. rewrite (run_events_fail ok 2 j) by assumption. reflexivity.
Qed.
Theorem mcopy_stopped : forall v w s k j, v <> w -> (j < 2 * length (s w) + (length (s w) - length (s v)))%nat ->
  plenty ok k (k + j)%nat -> ok (k + j)%nat = false ->
  step (MCopy v w) s k = Ok (mset s v [], S (k + j), [Failed (k + j)]).
Proof.
  intros v w s k j N J P F. cbn [fmstep]. apply Nat.eqb_neq in N. rewrite N. unfold on_object, fm_assign, fs_assign.
  unfold xbind at 1, xget. unfold xbind at 1, xput. unfold xbind at 1. rewrite (run_clone_fail ok 2 (s w) (length (s v)) [] k j J P F). reflexivity.
Qed.
(** The events before those of the new key [i]: those of the new keys among [pre]. *)
Theorem mextend_stopped : strict_total ltk -> forall v pre i x post s e m k j n, mstands ltk s e -> Z.of_nat (length (s v) + length (pre ++ (i, x) :: post)) <= INT_MAX ->
  e v i = None -> (forall y, ~ In (i, y) pre) -> extended (e v) pre m -> card (has m) (Z.of_nat (length (s v) + n)) -> (j < 3)%nat ->
  plenty ok k (k + 3 * n + j)%nat -> ok (k + 3 * n + j)%nat = false ->
  exists s', step (MExtend v (pre ++ (i, x) :: post)) s k = Ok (s', S (k + 3 * n + j), [Failed (k + 3 * n + j)]) /\ mstands ltk s' (fset e v m).
Proof.
  intros O v pre i x post s e m k j n ST L NX NP M C J P F.
  assert (SE : listing ltk (s v) (e v)) by apply ST. assert (SL : len (s v) <= INT_MAX) by apply ST.
  destruct (range_listing ltk O pre _ _ _ SE M) as (LX & LN).
  pose proof (listing_len ltk O _ _ _ LX C) as CN. unfold len in CN.
  assert (X : fst (map_insert ltk (fst (i, x)) (snd (i, x)) (map_insert_range ltk pre (s v))) = true).
  { apply (insert_fresh ltk O i x _ _ pre m SE M LX). auto. }
  assert (EQ : (k + 3 * n + j = k + 3 * (length (map_insert_range ltk pre (s v)) - length (s v)) + j)%nat) by lia.
  exists (mset s v (map_insert_range ltk pre (s v))). split.
  - cbn [fmstep]. unfold fm_guard. rewrite size_ok by exact SL. destruct (Z.leb_spec (len (pre ++ (i, x) :: post)) (INT_MAX - len (s v))) as [_|B]; [|unfold len in *; lia].
    unfold on_object, fm_extend. rewrite (run_mrange_fail pre (i, x) post (s v) k j X J _ EQ P F). reflexivity.
  - apply mstands_set; [exact ST|exact LX|]. rewrite app_length in L. unfold len in LN |- *. cbn [length] in L. lia.
Qed.
End Counts.

(** ** Witnesses *)
Notation zstep := (fun ok => fmstep ok Z.ltb Z.eqb Z.ltb Z.eqb (fun _ => []) (fun _ => [])).
Lemma mpop_witness : exists (ok : nat -> bool) (s : mstore Z Z) s' k' n,
  zstep ok (MPop 0%nat) s 0%nat = Ok (s', k', [Failed n]) /\ s 0%nat = [(1, 10); (2, 20)] /\ s' 0%nat = [(2, 20)].
Proof. exists (fun _ => false), (fun _ => [(1, 10); (2, 20)]). do 3 eexists. split; [reflexivity|]. split; reflexivity. Qed.
Lemma mcopy_witness : exists (ok : nat -> bool) (s : mstore Z Z) s' k' n,
  zstep ok (MCopy 0%nat 1%nat) s 0%nat = Ok (s', k', [Failed n]) /\ s 0%nat = [(1, 10); (2, 20)] /\ s 1%nat = [(4, 40)] /\ s' 0%nat = [].
Proof.
  exists (fun _ => false), (fun v => match v with O => [(1, 10); (2, 20)] | _ => [(4, 40)] end). do 3 eexists. split; [reflexivity|]. split; [reflexivity|]. split; reflexivity.
Qed.
Lemma mextend_witness : exists (ok : nat -> bool) (s : mstore Z Z) s' k' n,
  zstep ok (MExtend 0%nat [(5, 50); (4, 40)]) s 0%nat = Ok (s', k', [Failed n]) /\ s 0%nat = [(1, 10)] /\ s' 0%nat = [(1, 10); (5, 50)].
Proof. exists (fun k => Nat.ltb k 3), (fun _ => [(1, 10)]). do 3 eexists. split; [reflexivity|]. split; reflexivity. Qed.
