(** Properties C218..C221: Set and Dict whose comparisons are code of the client. Theorems only; each is an instance of a lemma
    proved elsewhere and is followed by its assumptions and by a concrete case. [S] is the state of the client's code, [X] the
    type of its exceptions. [honest c f]: when the call answers, it answers [f]. [throws c x]: some call throws [x]. [keeps
    shape]: rebalancing keeps the elements. [ucrun] and [gcrun] are the programs on mathematical sets and finite maps in which
    a comparison may throw an exception of [may]. [spends m t n]: at most [n] comparisons. *)
From Coq Require Import ZArith List Bool Ascii Lia.
From Verif Require Import Outcome ListSpec ListCallModel SetModel SetSpec DictModel DictSpec SetMore ErrorFacts TreeModel SetTreeModel DictTreeModel TreeSpec
  SetTree DictTree TreeMore TreeCost.
Import ListNotations.
Open Scope Z_scope.

(** A program on Sets behaves like one on mathematical sets in which a comparison may throw; undefined is only what is undefined anyway. *)
Theorem C218_refines : forall (S X T : Type) (may : X -> Prop) (less eq : T -> T -> call S X bool) (lt eqb : T -> T -> bool) show shape,
  strict_total lt -> decides eqb -> honest less lt -> honest eq eqb -> (forall x, throws less x -> may x) -> (forall x, throws eq x -> may x) -> keeps shape ->
  forall prog s q e, tstands lt s e -> Forall tint_stmt prog ->
  match crun less eq show shape prog (s, q) with
  | Ok ((s', _), ev) => exists e', ucrun lt show may prog e e' ev /\ tstands lt s' e'
  | UB _ => exists c, In c prog /\ ((exists v, c = TMove v v) \/ (exists v, c = TExtendSet v v))
  | _ => False
  end.
Proof. exact @crun_ok. Qed.
Print Assumptions C218_refines.

(** When a comparison throws, no Set has other elements than before, unless the call is extend. *)
Theorem C218_strong : forall (S X T : Type) (less eq : T -> T -> call S X bool) (lt eqb : T -> T -> bool) show shape, strict_total lt -> honest less lt -> honest eq eqb -> keeps shape ->
  forall c s q e s' q' ev x, tstands lt s e -> cstep less eq show shape c (s, q) = Ok ((s', q'), ev) -> In (Caught x) ev ->
  (forall v xs, c <> TExtend v xs) -> (forall v w, c <> TExtendSet v w) ->
  ev = [Caught x] /\ (throws less x \/ throws eq x) /\ forall v, elems (s' v) = elems (s v).
Proof. exact @cstep_strong. Qed.
Print Assumptions C218_strong.

(** When the client catches nothing, every comparison has answered: what answers keep, is kept. *)
Theorem C218_not_swallowed : forall (S X : Type) (P : S -> Prop) (T : Type) (less eq : T -> T -> call S X bool) show shape,
  (forall a b q r, P q -> fst (less a b q) = inl r -> P (snd (less a b q))) -> (forall a b q r, P q -> fst (eq a b q) = inl r -> P (snd (eq a b q))) ->
  forall prog s q s' q' ev, P q -> crun less eq show shape prog (s, q) = Ok ((s', q'), ev) -> (forall x, ~ In (Caught x) ev) -> P q'.
Proof. exact @crun_calm. Qed.
Print Assumptions C218_not_swallowed.

(** If no comparison throws, these are the programs of C70. *)
Theorem C218_without : forall (X T : Type) (lt : T -> T -> bool) show (may : X -> Prop) prog e e' ev, (forall x, ~ may x) ->
  ucrun lt show may prog e e' ev -> exists ev', ev = map Plain ev' /\ zrun lt show prog e e' ev'.
Proof. exact @ucrun_quiet. Qed.
Print Assumptions C218_without.

(** The second comparison of the first [add] throws 5; then the client goes on, and later [&] throws 5 and leaves the set of the result. *)
Example C218_case : strict_total Z.ltb /\ decides Z.eqb /\ honest (tired Z.ltb 5%nat) Z.ltb /\ honest (tired Z.eqb 5%nat) Z.eqb /\ keeps (@spines Z) /\
  throws (tired Z.ltb 5%nat) 5%nat /\ tstands Z.ltb (fun _ => Leaf) (fun _ _ => False) /\
  match crun (tired Z.ltb 5%nat) (tired Z.eqb 5%nat) (fun _ => []) (@spines Z)
    [TInit 0 [1; 3]; TAdd 0 2; TAdd 0 2; TIterate 0; TAnd 1 0 0; TIterate 1] (fun _ => Leaf, 3%nat) with
  | Ok (_, ev) => ev = [Caught 5%nat; Plain (TBool true); Plain (TElem 1); Plain (TElem 2); Plain (TElem 3); Caught 5%nat]
  | _ => False
  end.
Proof.
  split; [exact Zltb_total|]. split; [exact Zeqb_decides|]. split; [intros a b [|s] r H; cbn in H; congruence|]. split; [intros a b [|s] r H; cbn in H; congruence|].
  split; [intros t l; induction l; cbn; [reflexivity|f_equal; exact IHl]|]. split; [exists 0, 0, 0%nat; reflexivity|].
  split; [intros v; split; [split; [constructor|cbn; tauto]|cbn; unfold INT_MAX; lia]|]. vm_compute. reflexivity.
Qed.

(** Whenever the comparison throws, a Set extended by two elements has one of them. *)
Theorem C219_refuted : forall (T S X : Type) (less eq : T -> T -> call S X bool) show shape (a b : T) v (s : cstore T) q x, keeps shape ->
  elems (s v) = [] -> (forall y z q, exists q', less y z q = (inr x, q')) ->
  exists s' q', cstep less eq show shape (TExtend v [a; b]) (s, q) = Ok ((s', q'), [Caught x]) /\ elems (s' v) = [a].
Proof. exact @extend_partly. Qed.
Print Assumptions C219_refuted.

(** So has a Dict. *)
Theorem C219_dict_refuted : forall (K V S X : Type) (lessk eqk : K -> K -> call S X bool) (lessv eqv : V -> V -> call S X bool) showk showv shape shapek shapev (a b : K * V) v (s : cstore (K * V)) q x,
  keeps shape -> elems (s v) = [] -> (forall y z q, exists q', lessk y z q = (inr x, q')) ->
  exists s' q', gstep lessk eqk lessv eqv showk showv shape shapek shapev (MExtend v [a; b]) (s, q) = Ok ((s', q'), [Caught x]) /\ elems (s' v) = [a].
Proof. exact @dextend_partly. Qed.
Print Assumptions C219_dict_refuted.

(** What extend leaves behind: the elements in front of the one whose comparison threw have been added. *)
Theorem C219_prefix : forall (S X T : Type) (less eq : T -> T -> call S X bool) (lt eqb : T -> T -> bool) show shape, strict_total lt -> honest less lt -> honest eq eqb -> keeps shape ->
  forall v xs s q e s' q' ev x, tstands lt s e -> cstep less eq show shape (TExtend v xs) (s, q) = Ok ((s', q'), ev) -> In (Caught x) ev ->
  ev = [Caught x] /\ (throws less x \/ throws eq x) /\ (forall w, w <> v -> elems (s' w) = elems (s w)) /\
  exists a y b, xs = a ++ y :: b /\ forall z, In z (elems (s' v)) <-> In z (elems (s v)) \/ In z a.
Proof. exact @extend_prefix. Qed.
Print Assumptions C219_prefix.

(** The same for a Dict. *)
Theorem C219_dict_prefix : forall (S X K V : Type) (lessk eqk : K -> K -> call S X bool) (lessv eqv : V -> V -> call S X bool) (ltk ekb : K -> K -> bool) (ltv evb : V -> V -> bool) showk showv shape shapek shapev,
  strict_total ltk -> strict_total ltv -> honest lessk ltk -> honest lessv ltv -> honest eqk ekb -> honest eqv evb -> keeps shape -> keeps shapek -> keeps shapev ->
  forall v xs s q e s' q' ev x, gstands ltk s e ->
  gstep lessk eqk lessv eqv showk showv shape shapek shapev (MExtend v xs) (s, q) = Ok ((s', q'), ev) -> In (Caught x) ev ->
  ev = [Caught x] /\ (throws lessk x \/ throws eqk x \/ throws lessv x \/ throws eqv x) /\ (forall w, w <> v -> elems (s' w) = elems (s w)) /\
  exists a y b m, xs = a ++ y :: b /\ extended (e v) a m /\ listing ltk (elems (s' v)) m.
Proof. exact @dextend_prefix. Qed.
Print Assumptions C219_dict_prefix.

Example C219_case : keeps (@spines Z) /\ (forall (y z : Z) (q : nat), exists q' : nat, (fun (_ _ : Z) (q : nat) => (@inr bool nat 7%nat, q)) y z q = (inr 7%nat, q')) /\
  exists s', cstep (fun _ _ q => (inr 7%nat, q)) (tired Z.eqb 5%nat) (fun _ => []) (@spines Z) (TExtend 0 [4; 2]) (fun _ => Leaf, 0%nat) = Ok ((s', 0%nat), [Caught 7%nat]) /\
    elems (s' 0%nat) = [4].
Proof.
  split; [intros t l; induction l; cbn; [reflexivity|f_equal; exact IHl]|]. split; [intros y z q; exists q; reflexivity|]. eexists. split; [vm_compute; reflexivity|reflexivity].
Qed.

(** A program on Dicts behaves like one on finite maps in which a comparison may throw; undefined is only what is undefined anyway. *)
Theorem C220_refines : forall (S X K V : Type) (may : X -> Prop) (lessk eqk : K -> K -> call S X bool) (lessv eqv : V -> V -> call S X bool) (ltk ekb : K -> K -> bool) (ltv evb : V -> V -> bool) showk showv shape shapek shapev,
  strict_total ltk -> strict_total ltv -> decides ekb -> decides evb -> honest lessk ltk -> honest lessv ltv -> honest eqk ekb -> honest eqv evb -> 
  (forall x, throws lessk x -> may x) -> (forall x, throws lessv x -> may x) -> (forall x, throws eqk x -> may x) -> (forall x, throws eqv x -> may x) ->
  keeps shape -> keeps shapek -> keeps shapev ->
  forall prog s q e, gstands ltk s e -> Forall mint_stmt prog ->
  match grun lessk eqk lessv eqv showk showv shape shapek shapev prog (s, q) with
  | Ok ((s', _), ev) => exists e', gcrun ltk ltv showk showv may prog e e' ev /\ gstands ltk s' e'
  | UB _ => exists c, In c prog /\ ((exists v, c = MMove v v) \/ (exists v, c = MExtendDict v v) \/ (exists v, c = MMin v \/ c = MMax v))
  | _ => False
  end.
Proof. exact @grun_ok. Qed.
Print Assumptions C220_refines.

(** When a comparison throws, no Dict has other entries than before, unless the call is extend. *)
Theorem C220_strong : forall (S X K V : Type) (lessk eqk : K -> K -> call S X bool) (lessv eqv : V -> V -> call S X bool) (ltk ekb : K -> K -> bool) (ltv evb : V -> V -> bool) showk showv shape shapek shapev,
  strict_total ltk -> strict_total ltv -> honest lessk ltk -> honest lessv ltv -> honest eqk ekb -> honest eqv evb -> keeps shape -> keeps shapek -> keeps shapev ->
  forall c s q e s' q' ev x, gstands ltk s e -> gstep lessk eqk lessv eqv showk showv shape shapek shapev c (s, q) = Ok ((s', q'), ev) -> In (Caught x) ev ->
  (forall v xs, c <> MExtend v xs) -> (forall v w, c <> MExtendDict v w) ->
  ev = [Caught x] /\ (throws lessk x \/ throws eqk x \/ throws lessv x \/ throws eqv x) /\ forall v, elems (s' v) = elems (s v).
Proof. exact @gstep_strong. Qed.
Print Assumptions C220_strong.

(** When the client catches nothing, every comparison has answered: what answers keep, is kept. *)
Theorem C220_not_swallowed : forall (S X : Type) (P : S -> Prop) (K V : Type) (lessk eqk : K -> K -> call S X bool) (lessv eqv : V -> V -> call S X bool) showk showv shape shapek shapev,
  (forall a b q r, P q -> fst (lessk a b q) = inl r -> P (snd (lessk a b q))) -> (forall a b q r, P q -> fst (eqk a b q) = inl r -> P (snd (eqk a b q))) ->
  (forall a b q r, P q -> fst (lessv a b q) = inl r -> P (snd (lessv a b q))) -> (forall a b q r, P q -> fst (eqv a b q) = inl r -> P (snd (eqv a b q))) ->
  forall prog s q s' q' ev, P q -> grun lessk eqk lessv eqv showk showv shape shapek shapev prog (s, q) = Ok ((s', q'), ev) -> (forall x, ~ In (Caught x) ev) -> P q'.
Proof. exact @grun_calm. Qed.
Print Assumptions C220_not_swallowed.

(** If no comparison throws, these are the programs of C74. *)
Theorem C220_without : forall (X K V : Type) (ltk : K -> K -> bool) (ltv : V -> V -> bool) showk showv (may : X -> Prop) prog e e' ev, (forall x, ~ may x) ->
  gcrun ltk ltv showk showv may prog e e' ev -> exists ev', ev = map Plain ev' /\ frun ltk ltv showk showv prog e e' ev'.
Proof. exact @gcrun_quiet. Qed.
Print Assumptions C220_without.

(** The first [add] throws 5 at its second comparison; [values] throws 6 when two values are compared. *)
Example C220_case : strict_total Z.ltb /\ decides Z.eqb /\ honest (tired Z.ltb 6%nat) Z.ltb /\ keeps (@spines (Z * Z)) /\ keeps (@spines Z) /\
  gstands Z.ltb (fun _ => Leaf) (fun _ (_ : Z) => @None Z) /\
  match grun (tired Z.ltb 5%nat) (tired Z.eqb 5%nat) (tired Z.ltb 6%nat) (tired Z.eqb 6%nat) (fun _ => []) (fun _ => []) (@spines (Z * Z)) (@spines Z) (@spines Z)
    [MInit 0 [(1, 9); (3, 7)]; MAdd 0 2 8; MAdd 0 2 8; MGet 0 2; MValues 0; MIterate 0] (fun _ => Leaf, 3%nat) with
  | Ok (_, ev) => ev = [Caught 5%nat; Plain (MBool true); Plain (MVal 8); Caught 6%nat; Plain (MPair (1, 9)); Plain (MPair (2, 8)); Plain (MPair (3, 7))]
  | _ => False
  end.
Proof.
  split; [exact Zltb_total|]. split; [exact Zeqb_decides|]. split; [intros a b [|s] r H; cbn in H; congruence|].
  split; [intros t l; induction l; cbn; [reflexivity|f_equal; exact IHl]|]. split; [intros t l; induction l; cbn; [reflexivity|f_equal; exact IHl]|].
  split; [intros v; split; [split; [constructor|cbn; intros k x; split; [tauto|discriminate]]|cbn; unfold INT_MAX; lia]|]. vm_compute. reflexivity.
Qed.

(** contains, add and remove go down the tree once or twice. *)
Theorem C221_lookup : forall (X T : Type) (lt : T -> T -> bool) shape x t,
  spends (X := X) (set_contains_calls (patient lt) x) t (depth t + 1) /\
  spends (X := X) (set_add_calls (patient lt) shape x) t (depth t + 2) /\
  spends (X := X) (set_remove_calls (patient lt) shape x) t (2 * depth t).
Proof. exact (fun X T lt shape x t => conj (contains_spends lt x t) (conj (add_spends lt shape x t) (remove_spends lt shape x t))). Qed.
Print Assumptions C221_lookup.

(** A red-black tree is shallow. *)
Theorem C221_depth : forall E h (t : tree E), red_black false h t -> (depth t <= 2 * Nat.log2 (length (elems t) + 1))%nat.
Proof. exact @rb_log. Qed.
Print Assumptions C221_depth.

(** So they make a logarithmic number of comparisons. *)
Theorem C221_logarithmic : forall (X T : Type) (lt : T -> T -> bool) shape h x t, red_black false h t ->
  spends (X := X) (set_contains_calls (patient lt) x) t (2 * Nat.log2 (length (elems t) + 1) + 1) /\
  spends (X := X) (set_add_calls (patient lt) shape x) t (2 * Nat.log2 (length (elems t) + 1) + 2) /\
  spends (X := X) (set_remove_calls (patient lt) shape x) t (4 * Nat.log2 (length (elems t) + 1)).
Proof. exact @lookup_log. Qed.
Print Assumptions C221_logarithmic.

(** The relations make a linear number. *)
Theorem C221_relations : forall (X T : Type) (lt : T -> T -> bool) (eqb : T -> T -> bool) b t,
  spends (X := X) (set_eq_calls (patient eqb) b) t (length (elems t)) /\
  spends (X := X) (set_le_calls (patient lt) b) t (2 * length b) /\ spends (X := X) (set_lt_calls (patient lt) b) t (2 * length b) /\
  spends (X := X) (set_ge_calls (patient lt) b) t (2 * length (elems t)) /\ spends (X := X) (set_gt_calls (patient lt) b) t (2 * length (elems t)).
Proof. exact (fun X T lt eqb b t => conj (eq_spends eqb b t) (conj (proj1 (le_spends lt b t)) (conj (proj2 (le_spends lt b t)) (ge_spends lt b t)))). Qed.
Print Assumptions C221_relations.

(** The operators make a linear number. *)
Theorem C221_algebra : forall (X T : Type) (lt : T -> T -> bool) shape, strict_total lt -> keeps shape -> forall b t, increasing lt (elems t) -> increasing lt b ->
  spends (X := X) (set_and_calls (patient lt) shape b) t (2 * (length (elems t) + length b)) /\
  spends (X := X) (set_or_calls (patient lt) shape b) t (4 * (length (elems t) + length b)) /\
  spends (X := X) (set_sub_calls (patient lt) shape b) t (3 * (length (elems t) + length b)) /\
  spends (X := X) (set_xor_calls (patient lt) shape b) t (4 * (length (elems t) + length b)).
Proof. exact @algebra_spends. Qed.
Print Assumptions C221_algebra.

(** extend by elements above all others, in order, makes two for each. *)
Theorem C221_extend_sorted : forall (X T : Type) (lt : T -> T -> bool) shape, strict_total lt -> keeps shape -> forall xs t, increasing lt (elems t ++ xs) ->
  spends (X := X) (set_extend_calls (patient lt) shape xs) t (2 * length xs).
Proof. exact @extend_top_spends. Qed.
Print Assumptions C221_extend_sorted.

(** extend by k elements goes down the tree at most k times. *)
Theorem C221_extend : forall (X T : Type) (lt : T -> T -> bool) shape, keeps shape -> forall (h : nat -> nat) xs t, (forall i j, (i <= j -> h i <= h j)%nat) ->
  (forall t l, (depth (shape t l) <= h (length l))%nat) -> (depth t <= h (length (elems t)))%nat ->
  spends (X := X) (set_extend_calls (patient lt) shape xs) t (length xs * (h (length (elems t) + length xs) + 3))%nat.
Proof. exact @extend_spends. Qed.
Print Assumptions C221_extend.

(** The members of Dict; get looks the key up twice. *)
Theorem C221_dict : forall (X K V : Type) (lt : K -> K -> bool) shape (k : K) (x : V) t,
  spends (X := X) (dict_contains_calls (patient lt) k) t (depth t + 1) /\
  spends (X := X) (dict_at_calls (patient lt) k) t (depth t + 1) /\
  spends (X := X) (dict_set_calls (patient lt) shape k x) t (depth t + 1) /\
  spends (X := X) (dict_get_calls (patient lt) k x) t (2 * depth t + 2) /\
  spends (X := X) (dict_add_calls (patient lt) shape k x) t (depth t + 2) /\
  spends (X := X) (dict_remove_calls (patient lt) shape k) t (2 * depth t).
Proof. exact @dict_spends. Qed.
Print Assumptions C221_dict.

Example C221_case : red_black false 2 (Node false (Node false Leaf 1 Leaf) 2 (Node true (Node false Leaf 3 Leaf) 4 (Node false Leaf 5 (Node true Leaf 6 Leaf)))) /\
  snd (snd (set_contains_calls (X := nat) (patient Z.ltb) 6 (Node false (Node false Leaf 1 Leaf) 2 (Node true (Node false Leaf 3 Leaf) 4 (Node false Leaf 5 (Node true Leaf 6 Leaf))), 0%nat))) = 5%nat /\
  snd (snd (set_or_calls (X := nat) (patient Z.ltb) (@spines Z) [2; 4] (spine [1; 3], 0%nat))) = 10%nat /\
  snd (snd (dict_get_calls (X := nat) (patient Z.ltb) 3 0 (spine [(1, 2); (3, 4)], 0%nat))) = 6%nat.
Proof. split; [repeat econstructor|]. vm_compute. auto. Qed.
