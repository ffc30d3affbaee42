(** Properties C158-C162, and the positive part of C112: containers extended by themselves, containers of
    containers. Theorems only; each is an instance of a lemma proved elsewhere and is followed by its
    assumptions and by a concrete case. *)
From Coq Require Import ZArith List Bool Lia.
From Verif Require Import Outcome ListModel ListSpec ListProgModel DequeModel SetModel SetSpec DictModel NestModel NestSpec
  ListFacts SetMore NestFacts ExTools.
Import ListNotations.
Open Scope Z_scope.

(** l += l hands iterators of the vector to its own insert. *)
Theorem C158_append_refuted : forall (T : Type) (l : list T), len l <= INT_MAX -> len l / 2 * 2 < INT_MAX / 2 ->
  list_append_list l true l = (UB SelfRange, l).
Proof. exact append_self. Qed.
Print Assumptions C158_append_refuted.

(** v.extend(v.begin(), v.end()), guarded against too large results. *)
Theorem C158_list_extend_refuted : forall (T : Type) eqb lt show (d : T) (s : lstore T) v, 2 * len (s v) <= INT_MAX ->
  lstep eqb lt show d (LExtend v v) s = UB SelfRange.
Proof. exact self_extend_list. Qed.
Print Assumptions C158_list_extend_refuted.

Theorem C158_deque_extend_refuted : forall (T : Type) eqb show (s : dstore T) v, 2 * len (s v) <= INT_MAX ->
  dstep eqb show (DExtendBack v v) s = UB SelfRange /\ dstep eqb show (DExtendFront v v) s = UB SelfRange.
Proof. exact self_extend_deque. Qed.
Print Assumptions C158_deque_extend_refuted.

Theorem C158_set_extend_refuted : forall (T : Type) lt eqb show (s : tstore T) v, 2 * len (s v) <= INT_MAX ->
  tstep lt eqb show (TExtendSet v v) s = UB SelfRange.
Proof. exact self_extend_set. Qed.
Print Assumptions C158_set_extend_refuted.

Theorem C158_dict_extend_refuted : forall (K V : Type) ltk eqk ltv eqv showk showv (s : mstore K V) v, 2 * len (s v) <= INT_MAX ->
  mstep ltk eqk ltv eqv showk showv (MExtendDict v v) s = UB SelfRange.
Proof. exact self_extend_dict. Qed.
Print Assumptions C158_dict_extend_refuted.

(** l + l, l * 2 and appending an equal but different list do double. *)
Theorem C158_other_ways : forall (T : Type) (d : T) l, 2 * len l <= INT_MAX - 3 ->
  list_plus_list l l = Ok (l ++ l) /\ list_times d l 2 = Ok (l ++ l) /\ list_append_list l false l = (Ok tt, l ++ l).
Proof. exact doubling. Qed.
Print Assumptions C158_other_ways.

Example C158_case : 2 * len [7; 8] <= INT_MAX - 3 /\ list_plus_list [7; 8] [7; 8] = Ok [7; 8; 7; 8] /\
  list_append_list [7; 8] true [7; 8] = (UB SelfRange, [7; 8]).
Proof. split; [vm_compute; discriminate|]. split; reflexivity. Qed.

(** Lists of incomparable sets are <= each other and different. *)
Theorem C159_equivalent_refuted : seq_le (synth_cmp (set_lt Z.ltb)) [[1]] [[2]] = true /\ seq_le (synth_cmp (set_lt Z.ltb)) [[2]] [[1]] = true /\
  list_eqb (set_eqb Z.eqb) [[1]] [[2]] = false.
Proof. exact sets_order_witness. Qed.
Print Assumptions C159_equivalent_refuted.

(** Three lists of sets, each less than the next and the last less than the first. *)
Theorem C159_cycle_refuted : exists a b c : list (list Z),
  seq_lt (synth_cmp (set_lt Z.ltb)) a b = true /\ seq_lt (synth_cmp (set_lt Z.ltb)) b c = true /\
  seq_lt (synth_cmp (set_lt Z.ltb)) c a = true.
Proof. exact sets_cycle_witness. Qed.
Print Assumptions C159_cycle_refuted.

(** The comparator is not a strict weak order (C112), so std::stable_sort is undefined; insertion sort leaves a set in front of its subset. *)
Theorem C160_sort_refuted : list_sort (set_lt Z.ltb) [[1; 3]; [2]; [1]] = (Ok tt, [[1; 3]; [2]; [1]]) /\ set_lt Z.ltb [1] [1; 3] = true.
Proof. exact sort_sets_witness. Qed.
Print Assumptions C160_sort_refuted.

(** Sets of which one always includes the other are sorted by size. *)
Theorem C160_chain : forall (T : Type) (lt : T -> T -> bool) l, strict_total lt -> chain lt l ->
  exists r, list_sort (set_lt lt) l = (Ok tt, r) /\ stably_sorted (fun a b => len a <? len b) l r.
Proof. exact sort_chain. Qed.
Print Assumptions C160_chain.

Example C160_case : chain Z.ltb [[1; 3; 4]; [3]; [1; 3]; []] /\
  list_sort (set_lt Z.ltb) [[1; 3; 4]; [3]; [1; 3]; []] = (Ok tt, [[]; [3]; [1; 3]; [1; 3; 4]]).
Proof.
  split; [|reflexivity]. split.
  - intros a [<-|[<-|[<-|[<-|[]]]]]; (split; [repeat constructor|vm_compute; discriminate]).
  - intros a b [<-|[<-|[<-|[<-|[]]]]] [<-|[<-|[<-|[<-|[]]]]]; unfold incl; cbn [In]; solve [left; intuition | right; intuition].
Qed.

(** Sets of which one always includes the other can be elements of a Set. *)
Theorem C112_chain : forall (T : Type) (lt : T -> T -> bool) l, strict_total lt -> chain lt l ->
  NoDup (set_of (set_lt lt) l) /\ (forall a, In a (set_of (set_lt lt) l) <-> In a l) /\
  (forall a, In a l -> set_contains (set_lt lt) (set_of (set_lt lt) l) a = true).
Proof. exact set_of_chain. Qed.
Print Assumptions C112_chain.

(** The second key is taken for the first: its entry is dropped and looking it up finds the value of the first. *)
Theorem C161_keys_refuted : dict_of (set_lt Z.ltb) [([1], 10); ([2], 20)] = [([1], 10)] /\
  dict_at (set_lt Z.ltb) [([1], 10)] [2] = Ok 10 /\ dict_add (set_lt Z.ltb) [2] 20 [([1], 10)] = (Ok false, [([1], 10)]).
Proof. exact dict_sets_witness. Qed.
Print Assumptions C161_keys_refuted.

(** The order of List and Deque over totally ordered elements is total, and <= is < or ==. *)
Theorem C162_sequences : forall (T : Type) (cmp : T -> T -> comparison) lt, total_order cmp lt ->
  strict_total (seq_lt cmp) /\
  (forall v w, seq_le cmp v w = true <-> seq_lt cmp v w = true \/ v = w) /\
  (forall v w, seq_le cmp v w = true -> seq_le cmp w v = true -> v = w).
Proof. exact total_seq. Qed.
Print Assumptions C162_sequences.

(** The same for elements that have < but no <=>. *)
Theorem C162_synthesised : forall (T : Type) (lt : T -> T -> bool), strict_total lt -> strict_total (seq_lt (synth_cmp lt)).
Proof. exact seq_of_total. Qed.
Print Assumptions C162_synthesised.

Theorem C162_pairs : forall (K V : Type) (ltk : K -> K -> bool) (ltv : V -> V -> bool), strict_total ltk -> strict_total ltv ->
  strict_total (pair_lt ltk ltv).
Proof. exact pair_of_total. Qed.
Print Assumptions C162_pairs.

Example C162_case : total_order Z.compare Z.lt /\
  set_of (seq_lt Z.compare) [[2; 1]; [1]; [2]; [1]; []] = [[]; [1]; [2]; [2; 1]] /\
  dict_of (seq_lt (list_cmp Z.compare)) [([[2]], 1); ([[1]; [0]], 2); ([[2]], 3)] = [([[1]; [0]], 2); ([[2]], 1)].
Proof. split; [split; [exact Z.compare_spec|split; [exact Z.lt_irrefl|exact Z.lt_trans]]|split; reflexivity]. Qed.
