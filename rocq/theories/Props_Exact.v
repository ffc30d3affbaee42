(** Exactly where C105, C108, C109, C110, C113, C114, C118, C119, C123, C150, C266 and C272 hold, and where C159 and C161 do. *)
From Coq Require Import String Ascii ZArith QArith List Bool Lia.
From Verif Require Import Outcome IntModel IntSpec ListModel ListSpec DequeModel SetModel SetSpec DictModel DictSpec StrModel StrSpec PySpec StreamModel FracModel FracSpec FracFacts FracMore Exact FracLoop ExTools NestModel NestSpec NestChain StrSum StrFull ExactMore.
Import ListNotations.
Open Scope Z_scope.

(** After extend size() is the number of elements exactly if it is an int. *)
Theorem C108_exact : forall (T : Type) (w l : list T), len l + len w < 2 ^ 32 ->
  (size (snd (list_extend w l)) = len (l ++ w) <-> len l + len w <= INT_MAX).
Proof. exact @extend_truthful. Qed.
Print Assumptions C108_exact.

Example C108_exact_example : len [1] + len [2; 3] < 2 ^ 32 /\ size (snd (list_extend [2; 3] [1])) = 3.
Proof. vm_compute. auto. Qed.

(** Adding an element that is there throws exactly if the set is full. *)
Theorem C113_exact : forall (T : Type) (lt : T -> T -> bool), strict_total lt -> forall a x, increasing lt a -> In x a -> len a <= INT_MAX ->
  (len a < INT_MAX -> set_add lt x a = (Ok false, a)) /\ (len a = INT_MAX -> set_add lt x a = (Throw ContainerFull, a)).
Proof. exact @set_add_present. Qed.
Print Assumptions C113_exact.

(** The same for keys of a dict. *)
Theorem C118_exact : forall (K V : Type) (ltk : K -> K -> bool), strict_total ltk -> forall (d : list (K * V)) k x v m, listing ltk d m -> m k = Some v -> len d <= INT_MAX ->
  (len d < INT_MAX -> dict_add ltk k x d = (Ok false, d)) /\ (len d = INT_MAX -> dict_add ltk k x d = (Throw ContainerFull, d)).
Proof. exact @dict_add_present. Qed.
Print Assumptions C118_exact.

Example C118_exact_example : listing Z.ltb [(1, 5)] (fun k => if k =? 1 then Some 5 else None) /\ dict_add Z.ltb 1 7 [(1, 5)] = (Ok false, [(1, 5)]) /\
  set_add Z.ltb 3 [1; 3] = (Ok false, [1; 3]).
Proof.
  split; [|split; reflexivity]. split; [repeat constructor|]. intros k x. cbn. destruct (Z.eqb_spec k 1) as [->|N].
  - split; [intros [H|[]]; injection H as <-; reflexivity|intros H; injection H as <-; auto].
  - split; [intros [H|[]]; injection H as <- <-; contradiction|discriminate].
Qed.

(** After extend size() is the number n of keys exactly if n is an int. *)
Theorem C119_exact : forall (K V : Type) (ltk : K -> K -> bool), strict_total ltk -> forall (xs d : list (K * V)) m m' n,
  listing ltk d m -> extended m xs m' -> card (has m') n -> n < 2 ^ 32 ->
  (size (snd (dict_extend ltk xs d)) = n <-> n <= INT_MAX).
Proof. exact @dict_extend_truthful. Qed.
Print Assumptions C119_exact.

Example C119_exact_example : let m := fun k => if k =? 1 then Some 5 else None in let m' := fun k => if k =? 1 then Some 5 else if k =? 2 then Some 6 else None in
  listing Z.ltb [(1, 5)] m /\ extended m [(1, 9); (2, 6); (2, 7)] m' /\ card (has m') 2 /\
  dict_extend Z.ltb [(1, 9); (2, 6); (2, 7)] [(1, 5)] = (Ok tt, [(1, 5); (2, 6)]).
Proof.
  cbv zeta. split; [|split; [|split; [|reflexivity]]].
  - split; [repeat constructor|]. intros k x. cbn. destruct (Z.eqb_spec k 1) as [->|N].
    + split; [intros [H|[]]; injection H as <-; reflexivity|intros H; injection H as <-; auto].
    + split; [intros [H|[]]; injection H as <- <-; contradiction|discriminate].
  - intros k. destruct (Z.eqb_spec k 1) as [->|N]; [split; [auto|discriminate]|]. split; [discriminate|]. intros _ x.
    destruct (Z.eqb_spec k 2) as [->|N2].
    + split.
      * intros H. injection H as <-. exists [(1, 9)], [(2, 7)]. split; [reflexivity|]. intros y [Y|[]]. discriminate.
      * intros (a & b & H & M). destruct a as [|p [|q [|r [|]]]]; cbn in H; try discriminate; injection H; intros; subst; auto.
        exfalso. apply (M 6). cbn. auto.
    + split; [discriminate|]. intros (a & b & H & _). exfalso.
      assert (I: In (k, x) [(1, 9); (2, 6); (2, 7)]) by (rewrite H; apply in_or_app; cbn; auto).
      cbn in I. destruct I as [I|[I|[I|[]]]]; injection I; lia.
  - exists [1; 2]. split; [repeat constructor; cbn; intuition discriminate|]. split; [|reflexivity]. intros x. unfold has. cbn.
    destruct (Z.eqb_spec x 1) as [->|N]; [split; eauto|]. destruct (Z.eqb_spec x 2) as [->|N2]; [split; eauto|].
    split; [intros [H|[H|[]]]; congruence|intros (y & Y); discriminate].
Qed.

(** Over printed fractions x :: map snd items with white space before each: the loop ends without the last one if the text ends with it, and never ends if white space follows. *)
Theorem C105_exact : forall items ws x e, Forall FracSpec.blank ws -> valid x ->
  Forall (fun it => fst it <> [] /\ Forall FracSpec.blank (fst it) /\ valid (snd it)) items -> Forall FracSpec.blank e ->
  let s := IStream (ws ++ frac_print x ++ flat_map (fun it => fst it ++ frac_print (snd it)) items ++ e) false false in
  (e = [] -> exists k, forall fuel, (k <= fuel)%nat -> frac_read_loop fuel s = Ok (removelast (x :: map snd items))) /\
  (e <> [] -> diverges (fun fuel => frac_read_loop fuel s)).
Proof. exact loop_exact. Qed.
Print Assumptions C105_exact.

Example C105_exact_example : valid (Frac 1 2) /\ valid (Frac (-3) 1) /\ Forall FracSpec.blank [" "%char] /\
  [] ++ frac_print (Frac 1 2) ++ flat_map (fun it => fst it ++ frac_print (snd it)) [([" "%char], Frac (-3) 1)] ++ [] = chars "1/2 -3" /\
  frac_read_loop 9 (IStream (chars "1/2 -3") false false) = Ok [Frac 1 2].
Proof.
  split; [apply valid_check; reflexivity|]. split; [apply valid_check; reflexivity|]. split; [repeat constructor; vm_compute; discriminate|].
  split; vm_compute; reflexivity.
Qed.

(** Of the texts that Python takes, Str::to_integer takes those of blanks, signs and digits only. *)
Theorem C272_exact : forall p base s z, 2 <= base <= 36 -> len s < INT_MAX -> py_int base s z ->
  ((exists r, str_to_integer p s base = Ok r) <-> Forall (fun c => StrSpec.blank c \/ c = "+"%char \/ c = "-"%char \/ exists d, digit_val base c d) s).
Proof. exact accepted_plain. Qed.
Print Assumptions C272_exact.

(** And the constructor of Int those of signs and digits only. *)
Theorem C272_constructor_exact : forall s z, py_int 10 s z ->
  ((exists r, int_of_chars s = Ok r) <-> Forall (fun c => c = "+"%char \/ c = "-"%char \/ exists d, digit_val 10 c d) s).
Proof. exact constructor_plain. Qed.
Print Assumptions C272_constructor_exact.

Example C272_exact_example : py_int 10 (chars "+42") 42 /\ Forall (fun c => c = "+"%char \/ c = "-"%char \/ exists d, digit_val 10 c d) (chars "+42").
Proof.
  assert (A: digit_val 10 "4"%char 4) by (split; [lia|left; split; [lia|reflexivity]]).
  assert (B: digit_val 10 "2"%char 2) by (split; [lia|left; split; [lia|reflexivity]]).
  split.
  - exists [], ["+"%char], [], (chars "42"), [], false, [4; 2]. split; [reflexivity|]. split; [constructor|]. split; [constructor|].
    split; [right; reflexivity|]. split; [constructor|]. split; [|reflexivity]. apply digits_more; [exact A|]. apply digits_one. exact B.
  - constructor; [auto|]. constructor; [eauto|]. constructor; [eauto|]. constructor.
Qed.

(** A string of INT_MAX characters gives undefined behaviour exactly if no text put after it makes a literal of it. *)
Theorem C123_exact : forall p base s, 2 <= base <= 36 -> len s = INT_MAX ->
  (str_to_integer p s base = UB SignedOverflow <-> forall t z, ~ StrSpec.int_literal base (s ++ t) z) /\
  (forall z, StrSpec.int_literal base s z -> returns (str_to_integer p s base) z) /\
  ((forall z, ~ StrSpec.int_literal base s z) -> (exists t z, StrSpec.int_literal base (s ++ t) z) -> str_to_integer p s base = Throw BadIntegerLiteral).
Proof. exact to_integer_full_exact. Qed.
Print Assumptions C123_exact.

Example C123_exact_case : (exists s : list ascii, len s = INT_MAX) /\ (forall t z, ~ StrSpec.int_literal 10 (chars "1+" ++ t) z) /\
  StrSpec.int_literal 10 (chars " -" ++ ["7"%char]) (-7).
Proof.
  split; [destruct malformed_full_refuted as (s & L & _); exists s; exact L|]. split.
  - apply (loop_example Benign 10 (chars "1+") ltac:(lia) S_OTHER true (MkInt 1 [1])); reflexivity.
  - exists [" "%char], ["-"%char], ["7"%char], [], true, [7]. split; [reflexivity|]. split; [repeat constructor|]. split; [constructor|].
    split; [reflexivity|]. split; [constructor; [split; [lia|left; cbn; lia]|constructor]|]. split; [discriminate|reflexivity].
Qed.

(** Lists and Deques of Sets of which one always includes the other are totally ordered, in accordance with ==. *)
Theorem C159_chain : forall (T : Type) (lt : T -> T -> bool) u v w, strict_total lt -> chain lt (u ++ v ++ w) ->
  let L := seq_lt (synth_cmp (set_lt lt)) in let LE := seq_le (synth_cmp (set_lt lt)) in
  L u u = false /\ (L u v = true -> L v w = true -> L u w = true) /\ (L u v = true \/ u = v \/ L v u = true) /\
  (LE u v = true <-> L u v = true \/ u = v) /\ (LE u v = true -> LE v u = true -> u = v).
Proof. exact seq_chain. Qed.
Print Assumptions C159_chain.

(** Sets of which one always includes the other can be keys of a Dict. *)
Theorem C161_chain : forall (T V : Type) (lt : T -> T -> bool) (xs : list (list T * V)), strict_total lt -> chain lt (map fst xs) ->
  NoDup (map fst (dict_of (set_lt lt) xs)) /\ (forall k x, In (k, x) (dict_of (set_lt lt) xs) <-> first_value xs k x) /\
  (forall k x, first_value xs k x -> dict_at (set_lt lt) (dict_of (set_lt lt) xs) k = Ok x).
Proof. exact dict_of_chain. Qed.
Print Assumptions C161_chain.

Example C161_chain_case : chain Z.ltb [[1; 3]; []; [3]; [1; 3]] /\
  dict_of (set_lt Z.ltb) [([1; 3], 5); ([], 6); ([3], 7); ([1; 3], 8)] = [([], 6); ([3], 7); ([1; 3], 5)] /\
  seq_lt (synth_cmp (set_lt Z.ltb)) [[3]; [1; 3]] [[1; 3]; []] = true.
Proof.
  split; [|split; reflexivity]. split.
  - intros a [<-|[<-|[<-|[<-|[]]]]]; (split; [repeat constructor|vm_compute; discriminate]).
  - intros a b [<-|[<-|[<-|[<-|[]]]]] [<-|[<-|[<-|[<-|[]]]]]; unfold incl; cbn [In]; solve [left; intuition | right; intuition].
Qed.

(** Exactly which arguments List accepts. *)
Theorem C266_list_exact : forall (T : Type) (l : list T), len l < INT_MAX ->
  (forall i x, (exists l', list_insert i x l = (Ok tt, l')) <-> - len l <= i <= len l) /\
  (forall start stop step, (exists r, list_slice l start stop step = Ok r) <->
     step <> 0 /\ - len l <= start < len l /\ - len l - 1 <= stop <= len l /\ slice_fits (from_back (len l) start) (from_back (len l) stop) step) /\
  (forall start stop, (exists l', list_erase start stop l = (Ok tt, l')) <-> 0 <= start <= stop /\ stop <= len l) /\
  (forall d n, (exists r, list_times d l n = Ok r) <-> 0 <= n /\ len l * n < INT_MAX) /\
  (forall eqb x start stop, (exists r, list_index eqb l x start stop = Ok r) <-> 0 <= start <= Z.min stop (len l)).
Proof. exact list_accepts. Qed.
Print Assumptions C266_list_exact.

(** Exactly which arguments Str accepts. *)
Theorem C266_str_exact : forall s : str, len s < INT_MAX ->
  (forall start stop step, (exists r, str_slice s start stop step = Ok r) <->
     step <> 0 /\ - len s <= start < len s /\ - len s - 1 <= stop <= len s /\ slice_fits (from_back (len s) start) (from_back (len s) stop) step) /\
  (forall start stop, (exists r, str_erase s start stop = Ok r) <-> 0 <= start <= stop /\ stop <= len s) /\
  (forall n, (exists r, str_times s n = Ok r) <-> 0 <= n /\ len s * n <= INT_MAX) /\
  (forall p start stop, (exists r, str_find s p start stop = Ok r) <-> len s < start \/ 0 <= start <= stop).
Proof. exact str_accepts. Qed.
Print Assumptions C266_str_exact.

(** List += list is accepted up to INT_MAX - 2 elements in total, and for INT_MAX - 1 if both have an odd number. *)
Theorem C109_exact : forall T (l w : list T), len l <= INT_MAX -> len w <= INT_MAX ->
  let accepted := len l + len w <= INT_MAX - 2 \/ len l + len w = INT_MAX - 1 /\ Z.odd (len l) = true in
  (accepted -> list_append_list w false l = (Ok tt, l ++ w)) /\ (~ accepted -> list_append_list w false l = (Throw ContainerFull, l)).
Proof. exact append_exact. Qed.
Print Assumptions C109_exact.

Example C109_exact_case : (exists l w : list Z, len l + len w = INT_MAX - 1 /\ Z.odd (len l) = true) /\ list_append_list [3] false [1; 2] = (Ok tt, [1; 2; 3]).
Proof.
  split; [|reflexivity]. exists [0], (repeat 0 (Z.to_nat (INT_MAX - 2))). split; [|reflexivity].
  unfold len. rewrite repeat_length. rewrite Z2Nat.id by (unfold INT_MAX; lia). unfold INT_MAX. cbn [length]. lia.
Qed.

(** After extend size() is the number of elements of a Deque exactly if it is an int. *)
Theorem C110_exact : forall T (q w : list T), len q + len w < 2 ^ 32 ->
  (size (snd (deq_extend_back w q)) = len q + len w <-> len q + len w <= INT_MAX) /\
  (size (snd (deq_extend_front w q)) = len q + len w <-> len q + len w <= INT_MAX).
Proof. exact deq_extend_truthful. Qed.
Print Assumptions C110_exact.

Example C110_exact_case : len [1; 2] + len [3] < 2 ^ 32 /\ size (snd (deq_extend_front [1; 2] [3])) = 3.
Proof. split; reflexivity. Qed.

(** The same for Sets; n is the number of elements there are afterwards. *)
Theorem C114_exact : forall T (lt : T -> T -> bool), strict_total lt -> forall a b P Q xs n, enumerates lt a P -> enumerates lt b Q -> n < 2 ^ 32 ->
  (card (fun x => P x \/ Q x) n -> (size (set_or lt a b) = n <-> n <= INT_MAX)) /\
  (card (fun x => (P x /\ ~ Q x) \/ (~ P x /\ Q x)) n -> (size (set_xor lt a b) = n <-> n <= INT_MAX)) /\
  (card (fun x => P x \/ In x xs) n -> (size (snd (set_extend lt xs a)) = n <-> n <= INT_MAX)).
Proof. exact set_sizes_truthful. Qed.
Print Assumptions C114_exact.

Example C114_exact_case : enumerates Z.ltb [1; 3] (fun x => x = 1 \/ x = 3) /\ card (fun x => (x = 1 \/ x = 3) \/ In x [2; 3]) 3 /\
  size (snd (set_extend Z.ltb [2; 3] [1; 3])) = 3.
Proof.
  split; [|split; [|reflexivity]].
  - split; [repeat constructor|]. intros x. cbn. intuition congruence.
  - exists [1; 2; 3]. split; [repeat constructor; cbn; intuition discriminate|]. split; [|reflexivity]. intros x. cbn. intuition congruence.
Qed.

(** Where x + (y + z) is defined, (x + y) + z is the same Fraction if the products and the sum that its two additions form are ints, and undefined otherwise; w is x + y in lowest terms. *)
Theorem C150_exact : forall x y z r, valid x -> valid y -> valid z -> (s <- frac_add y z ;; frac_add x s) = Ok r ->
  let safe := fun x y => FracSpec.fits (num x * den y) /\ FracSpec.fits (den x * num y) /\ fits1 (num x * den y + den x * num y) /\ FracSpec.fits (den x * den y) in
  let right := safe x y /\ forall w, valid w -> (qval w == qval x + qval y)%Q -> safe w z in
  (right -> (t <- frac_add x y ;; frac_add t z) = Ok r) /\ (~ right -> (t <- frac_add x y ;; frac_add t z) = UB SignedOverflow).
Proof. exact regroup_exact. Qed.
Print Assumptions C150_exact.

Example C150_exact_case : (s <- frac_add (Frac 1 3) (Frac (-1) 4) ;; frac_add (Frac 1 2) s) = Ok (Frac 7 12) /\
  (t <- frac_add (Frac 1 2) (Frac 1 3) ;; frac_add t (Frac (-1) 4)) = Ok (Frac 7 12) /\
  (s <- frac_add (Frac 1 1) (Frac (-1) 1) ;; frac_add (Frac INT_MAX 1) s) = Ok (Frac INT_MAX 1) /\ valid (Frac INT_MAX 1).
Proof. do 3 (split; [vm_compute; reflexivity|]). apply valid_check. vm_compute. reflexivity. Qed.
