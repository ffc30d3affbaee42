(** Properties C70-C73 and C112-C116: sets. Theorems only; each is an instance of a lemma
    proved elsewhere and is followed by its assumptions and by a concrete case.
    [enumerates lt a P]: the iteration order of the set [a] is the increasing list of the
    elements of the mathematical set [P]. *)
From Coq Require Import String Ascii ZArith List Bool Lia Sorted.
From Verif Require Import Outcome Show ListModel ListSpec ListFacts ListMore SetModel SetSpec SetFacts SetProg SetMore ExTools.
Import ListNotations.
Open Scope Z_scope.

(** Whatever a program does to the code it does to mathematical sets: same results, text and exceptions. *)
Theorem C70_histories : forall (T : Type) (lt eqb : T -> T -> bool) (show : T -> list ascii), strict_total lt -> decides eqb ->
  forall prog s e s' ev, stands lt s e -> Forall tint_stmt prog -> trun lt eqb show prog s = Ok (s', ev) ->
  exists e', zrun lt show prog e e' ev /\ stands lt s' e'.
Proof. exact @trun_refines. Qed.
Print Assumptions C70_histories.

(** Every abstract run is a run of the code. *)
Theorem C70_histories_complete : forall (T : Type) (lt eqb : T -> T -> bool) (show : T -> list ascii), strict_total lt -> decides eqb ->
  forall prog s e e' ev, stands lt s e -> Forall tint_stmt prog -> zrun lt show prog e e' ev ->
  exists s', trun lt eqb show prog s = Ok (s', ev) /\ stands lt s' e'.
Proof. exact @zrun_complete. Qed.
Print Assumptions C70_histories_complete.

(** Unless a set is moved or extended from itself, the program runs to its end. *)
Theorem C70_always_defined : forall (T : Type) (lt eqb : T -> T -> bool) (show : T -> list ascii), strict_total lt -> decides eqb ->
  forall prog s e, stands lt s e -> Forall tint_stmt prog ->
  ~ (exists c, In c prog /\ ((exists v, c = TMove v v) \/ (exists v, c = TExtendSet v v))) ->
  exists s' e' ev, trun lt eqb show prog s = Ok (s', ev) /\ zrun lt show prog e e' ev /\ stands lt s' e'.
Proof. exact @trun_defined. Qed.
Print Assumptions C70_always_defined.

Theorem C70_add_remove : forall (T : Type) (lt : T -> T -> bool), strict_total lt -> forall a P x, enumerates lt a P -> len a <= INT_MAX ->
  (len a = INT_MAX -> set_add lt x a = (Throw ContainerFull, a)) /\
  (len a < INT_MAX -> exists b a', set_add lt x a = (Ok b, a') /\ tells b (~ P x) /\ enumerates lt a' (plus P x)) /\
  (exists b a', set_remove lt x a = (Ok b, a') /\ tells b (P x) /\ enumerates lt a' (minus P x)).
Proof. exact @add_remove_ok. Qed.
Print Assumptions C70_add_remove.

Theorem C70_contains : forall (T : Type) (lt : T -> T -> bool), strict_total lt -> forall a P x, enumerates lt a P ->
  tells (set_contains lt a x) (P x).
Proof. exact @contains_spec. Qed.
Print Assumptions C70_contains.

Theorem C70_extend_clear_construct : forall (T : Type) (lt : T -> T -> bool), strict_total lt -> forall a P xs, enumerates lt a P ->
  (exists a', set_extend lt xs a = (Ok tt, a') /\ enumerates lt a' (either P (fun y => In y xs))) /\
  set_clear a = (Ok tt, []) /\ enumerates lt (set_of lt xs) (fun y => In y xs).
Proof. exact @extend_clear_ok. Qed.
Print Assumptions C70_extend_clear_construct.

Example C70_case : strict_total Z.ltb /\ stands Z.ltb (fun _ => []) (fun _ _ => False) /\ exists s',
  trun Z.ltb Z.eqb show_int
    [TInit 1%nat [3; 1; 2; 3]; TSize 1%nat; TAdd 1%nat 2; TAdd 1%nat 0; TRemove 1%nat 9; TInit 2%nat [3; 4]; TXor 3%nat 1%nat 2%nat; TPrint 3%nat;
     TAndA 1%nat 2%nat; TLess 1%nat 2%nat; TPrint 1%nat; TPop 1%nat; TPop 1%nat; TExtend 1%nat [5; 5; 4]; TOrA 1%nat 2%nat; TIterate 1%nat; TMax 1%nat]
    (fun _ => []) = Ok (s', [TNum 3; TBool false; TBool true; TBool false; TText (chars "{0, 1, 2, 4}"); TBool true; TText (chars "{3}");
                             TElem 3; TThrow ContainerEmpty; TElem 3; TElem 4; TElem 5; TElem 5]).
Proof.
  split; [exact Zltb_total|]. split.
  - intros v. split; [split; [constructor|cbn; tauto]|cbn; unfold INT_MAX; lia].
  - eexists. vm_compute. reflexivity.
Qed.

Theorem C71_and : forall (T : Type) (lt : T -> T -> bool), strict_total lt -> forall a b P Q, enumerates lt a P -> enumerates lt b Q ->
  enumerates lt (set_and lt a b) (fun x => P x /\ Q x).
Proof. exact @and_ok. Qed.
Print Assumptions C71_and.

Theorem C71_or : forall (T : Type) (lt : T -> T -> bool), strict_total lt -> forall a b P Q, enumerates lt a P -> enumerates lt b Q ->
  enumerates lt (set_or lt a b) (fun x => P x \/ Q x).
Proof. exact @or_ok. Qed.
Print Assumptions C71_or.

Theorem C71_sub : forall (T : Type) (lt : T -> T -> bool), strict_total lt -> forall a b P Q, enumerates lt a P -> enumerates lt b Q ->
  enumerates lt (set_sub lt a b) (fun x => P x /\ ~ Q x).
Proof. exact @sub_ok. Qed.
Print Assumptions C71_sub.

Theorem C71_xor : forall (T : Type) (lt : T -> T -> bool), strict_total lt -> forall a b P Q, enumerates lt a P -> enumerates lt b Q ->
  enumerates lt (set_xor lt a b) (fun x => (P x /\ ~ Q x) \/ (Q x /\ ~ P x)).
Proof. exact @xor_ok. Qed.
Print Assumptions C71_xor.

Theorem C71_in_place : forall (T : Type) (lt : T -> T -> bool) (a b : list T),
  set_and_assign lt b a = (Ok tt, set_and lt a b) /\ set_or_assign lt b a = (Ok tt, set_or lt a b) /\
  set_sub_assign lt b a = (Ok tt, set_sub lt a b) /\ set_xor_assign lt b a = (Ok tt, set_xor lt a b).
Proof. exact @assign_ok. Qed.
Print Assumptions C71_in_place.

Example C71_case : enumerates Z.ltb [1; 2; 3] (fun x => 1 <= x <= 3) /\
  set_and Z.ltb [1; 2; 3] [2; 5] = [2] /\ set_or Z.ltb [1; 2; 3] [2; 5] = [1; 2; 3; 5] /\
  set_sub Z.ltb [1; 2; 3] [2; 5] = [1; 3] /\ set_xor Z.ltb [1; 2; 3] [2; 5] = [1; 3; 5].
Proof.
  split; [|vm_compute; repeat split]. split.
  - repeat constructor.
  - intros x. cbn. lia.
Qed.

Theorem C72_included : forall (T : Type) (lt : T -> T -> bool), strict_total lt -> forall a b P Q, enumerates lt a P -> enumerates lt b Q ->
  set_le lt a b = true <-> (forall x, P x -> Q x).
Proof. exact @le_ok. Qed.
Print Assumptions C72_included.

Theorem C72_properly_included : forall (T : Type) (lt : T -> T -> bool), strict_total lt -> forall a b P Q, enumerates lt a P -> enumerates lt b Q ->
  len a <= INT_MAX -> len b <= INT_MAX ->
  set_lt lt a b = true <-> (forall x, P x -> Q x) /\ ~ (forall x, Q x -> P x).
Proof. exact @lt_ok. Qed.
Print Assumptions C72_properly_included.

Theorem C72_converses : forall (T : Type) (lt : T -> T -> bool) a b, set_ge lt a b = set_le lt b a /\ set_gt lt a b = set_lt lt b a.
Proof. exact (fun T lt a b => conj eq_refl eq_refl). Qed.
Print Assumptions C72_converses.

Theorem C72_equal : forall (T : Type) (lt : T -> T -> bool), strict_total lt -> forall eqb a b P Q, decides eqb -> enumerates lt a P -> enumerates lt b Q ->
  set_eqb eqb a b = true <-> (forall x, P x <-> Q x).
Proof. exact @eq_ok. Qed.
Print Assumptions C72_equal.

Example C72_case : set_le Z.ltb [1; 3] [1; 2; 3] = true /\ set_lt Z.ltb [1; 3] [1; 2; 3] = true /\ set_lt Z.ltb [1; 3] [1; 3] = false /\
  set_le Z.ltb [1; 4] [1; 2; 3] = false /\ set_le Z.ltb [] [1] = true /\ set_ge Z.ltb [1; 3] [3] = true /\ set_eqb Z.eqb [1; 3] [1; 3] = true.
Proof. vm_compute. repeat split. Qed.

Theorem C73_extrema_and_pop : forall (T : Type) (lt : T -> T -> bool), strict_total lt -> forall a P, enumerates lt a P -> len a <= INT_MAX ->
  (nothing P -> set_min a = Throw ContainerEmpty /\ set_max a = Throw ContainerEmpty /\ set_pop a = (Throw ContainerEmpty, a)) /\
  (~ nothing P -> exists x y a', set_min a = Ok x /\ least lt P x /\ set_max a = Ok y /\ greatest lt P y /\
     set_pop a = (Ok x, a') /\ enumerates lt a' (minus P x)).
Proof. exact @min_max_pop. Qed.
Print Assumptions C73_extrema_and_pop.

Example C73_case : set_min [2; 5; 9] = Ok 2 /\ set_max [2; 5; 9] = Ok 9 /\ set_pop [2; 5; 9] = (Ok 2, [5; 9]) /\ set_pop (@nil Z) = (Throw ContainerEmpty, []).
Proof. vm_compute. repeat split. Qed.

(** The set holding {1} reports that it contains {2}, and adding {2} to it has no effect. *)
Theorem C112_sets_of_sets_refuted : set_of (set_lt Z.ltb) [[1]; [2]] = [[1]] /\ set_contains (set_lt Z.ltb) [[1]] [2] = true /\
  set_eqb (list_eqb Z.eqb) [[1]] [[2]] = false.
Proof. exact set_of_sets_witness. Qed.
Print Assumptions C112_sets_of_sets_refuted.

(** operator< of Set is not a strict weak order, which std::set requires of its elements. *)
Theorem C112_not_an_order_refuted : ~ strict_weak (set_lt Z.ltb).
Proof. exact set_lt_not_weak. Qed.
Print Assumptions C112_not_an_order_refuted.

Theorem C113_add_present_full_refuted : exists (a : list Z) x, increasing Z.ltb a /\ In x a /\ set_add Z.ltb x a = (Throw ContainerFull, a).
Proof. exact add_present_full_witness. Qed.
Print Assumptions C113_add_present_full_refuted.

Theorem C114_sizes_wrap_refuted : exists a b : list Z, increasing Z.ltb a /\ increasing Z.ltb b /\ len b = 1 /\
  size (set_or Z.ltb a b) = INT_MIN /\ size (set_xor Z.ltb a b) = INT_MIN /\ size (snd (set_extend Z.ltb b a)) = INT_MIN.
Proof. exact union_wraps_witness. Qed.
Print Assumptions C114_sizes_wrap_refuted.

Theorem C114_sizes_that_fit : forall (T : Type) (lt : T -> T -> bool) a b xs, strict_total lt -> increasing lt a -> increasing lt b ->
  (len a + len b <= INT_MAX -> size (set_or lt a b) = len (set_or lt a b) /\ size (set_xor lt a b) = len (set_xor lt a b)) /\
  (len a + len xs <= INT_MAX -> size (snd (set_extend lt xs a)) = len (snd (set_extend lt xs a))) /\
  (len a <= INT_MAX -> size (set_and lt a b) = len (set_and lt a b) /\ size (set_sub lt a b) = len (set_sub lt a b)).
Proof. exact sizes_that_fit. Qed.
Print Assumptions C114_sizes_that_fit.

Theorem C115_algebra : forall (T : Type) (lt : T -> T -> bool), strict_total lt -> forall a b c, increasing lt a -> increasing lt b -> increasing lt c ->
  set_and lt a b = set_and lt b a /\ set_or lt a b = set_or lt b a /\ set_xor lt a b = set_xor lt b a /\
  set_and lt a (set_and lt b c) = set_and lt (set_and lt a b) c /\
  set_or lt a (set_or lt b c) = set_or lt (set_or lt a b) c /\
  set_xor lt a (set_xor lt b c) = set_xor lt (set_xor lt a b) c /\
  set_and lt a (set_or lt b c) = set_or lt (set_and lt a b) (set_and lt a c) /\
  set_or lt a (set_and lt b c) = set_and lt (set_or lt a b) (set_or lt a c) /\
  set_sub lt a (set_or lt b c) = set_and lt (set_sub lt a b) (set_sub lt a c) /\
  set_sub lt a (set_and lt b c) = set_or lt (set_sub lt a b) (set_sub lt a c) /\
  set_xor lt a b = set_sub lt (set_or lt a b) (set_and lt a b) /\
  set_or lt (set_sub lt a b) (set_and lt a b) = a /\
  set_xor lt (set_xor lt a b) b = a /\
  set_and lt a a = a /\ set_or lt a a = a /\ set_sub lt a a = [] /\ set_xor lt a a = [].
Proof. exact @algebra. Qed.
Print Assumptions C115_algebra.

Example C115_case : let a := [1; 2; 5] in let b := [2; 3] in increasing Z.ltb a /\ set_xor Z.ltb (set_xor Z.ltb a b) b = a /\
  set_sub Z.ltb a [2] = [1; 5] /\ set_or Z.ltb (set_sub Z.ltb a b) (set_and Z.ltb a b) = a.
Proof. cbv zeta. split; [repeat constructor|vm_compute; repeat split]. Qed.

Theorem C116_construction : forall (T : Type) (lt : T -> T -> bool), strict_total lt -> forall xs ys,
  (forall x, In x xs <-> In x ys) <-> set_of lt xs = set_of lt ys.
Proof. exact @of_unique. Qed.
Print Assumptions C116_construction.

Theorem C116_increasing_range : forall (T : Type) (lt : T -> T -> bool), strict_total lt -> forall a, increasing lt a -> set_of lt a = a.
Proof. exact @of_self. Qed.
Print Assumptions C116_increasing_range.

Example C116_case : set_of Z.ltb [3; 1; 3; 2] = [1; 2; 3] /\ set_of Z.ltb [2; 3; 1] = [1; 2; 3].
Proof. vm_compute. repeat split. Qed.
