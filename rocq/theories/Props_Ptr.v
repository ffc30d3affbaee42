(** Properties C213-C217: pointers and iterators into Strs. Theorems only; each is an instance of a lemma proved elsewhere and is
    followed by its assumptions and by a concrete case. [kstands t s I]: the state [t] stands for the texts [s], and the pointer and
    iterator variables are as [I] says: at a position, never set, or lost. *)
From Coq Require Import String Ascii ZArith List Bool Lia.
From Verif Require Import Outcome IntModel ListModel ListSpec StrModel StrSpec StrProgModel StrProgSpec StrPtrModel StrPtrSpec StrPtr StrPtrLoop ExRun ExTools.
Import ListNotations.
Open Scope Z_scope.

(** Every run on texts and positions is a run of the code. *)
Theorem C213_run : forall q prog t s I s' I' ev, kstands t s I -> Forall kint prog -> karun prog s I s' I' ev ->
  exists t', k_run ConstBenign q prog t = Ok (t', ev) /\ kstands t' s' I'.
Proof. exact krun_complete. Qed.
Print Assumptions C213_run.

(** A program runs to its end as texts and positions do, or it is undefined at a statement that is a risk, or it makes a string of INT_MAX bytes. *)
Theorem C213_otherwise_undefined : forall q prog t s I, kstands t s I -> short s -> Forall kint prog ->
  (exists t' s' I' ev, karun prog s I s' I' ev /\ k_run ConstBenign q prog t = Ok (t', ev) /\ kstands t' s' I') \/
  (exists before c after s1 I1 ev1, prog = before ++ c :: after /\ karun before s I s1 I1 ev1 /\ short s1 /\ krisk c s1 I1 /\
     exists u, k_run ConstBenign q prog t = UB u) \/
  (exists before after s1 I1 ev1, prog = before ++ after /\ after <> [] /\ karun before s I s1 I1 ev1 /\ ~ short s1).
Proof. exact krun_cases. Qed.
Print Assumptions C213_otherwise_undefined.

(** The reasons, and no others: a pointer that is lost or was never set, one that leaves the text and its null character, an iterator that leaves the text, a read at the last position, pointers into different Strs, a range that is backwards, and the calls that are undefined without pointers. *)
Theorem C213_undefined_reasons : forall q c t s I, kstands t s I -> short s -> kint c -> (exists u, k_step ConstBenign q c t = UB u) <-> krisk c s I.
Proof. exact kstep_risk. Qed.
Print Assumptions C213_undefined_reasons.

(** If writing to a const member is undefined, nothing changes for programs that neither assign nor move. *)
Theorem C213_const : forall q prog t, Forall (fun c => ~ kwrites c) prog ->
  k_run ConstUB q prog t = k_run ConstBenign q prog t.
Proof. exact krun_const. Qed.
Print Assumptions C213_const.

(** If writing to a const member is undefined, then so is every assignment from a pointer. *)
Theorem C213_const_writes : forall q c t s I, kstands t s I -> short s -> kint c -> kwrites c ->
  exists u, k_step ConstUB q c t = UB u.
Proof. exact kwrite_undefined. Qed.
Print Assumptions C213_const_writes.

Example C213_case : kstands kstate0 (XStore (fun _ => []) (fun _ => [])) (fun _ _ => PNone) /\ short (XStore (fun _ => []) (fun _ => [])) /\
  exists t, k_run ConstBenign Strict
    [KDo (XInit 0%nat (chars "hello")); KData 0 0%nat; KRead Ptr 0; KAddr 1 0%nat (-2); KRead Ptr 1; KDiff Ptr 1 0; KAddr 1 0%nat 5; KRead Ptr 1;
     KAdd Ptr 0 5; KRead Ptr 0; KBack Ptr 0; KAdd Ptr 0 1; KBack Ptr 0; KAdd Ptr 0 (-4); KText 1%nat 0; KDo (XPrint 1%nat); KRead Ptr 0;
     KBegin 0 0%nat; KEnd 1 0%nat; KAdd Itr 0 1; KRange Itr 2%nat 0 1; KDo (XPrint 2%nat); KRevRange Itr 2%nat 1 0; KDo (XPrint 2%nat); KBack Itr 1;
     KDo (XUpper 3%nat 0%nat); KDo (XErase 0%nat 0%nat 4 9); KRead Itr 0; KAssign 0%nat 0; KDo (XPrint 0%nat); KBegin 0 0%nat; KRead Itr 0] kstate0 =
  Ok (t, [XChar "h"; XChar "l"; XNum 3; XThrow IndexOutOfRange; XChar "l"; XChar (ascii_of_nat 0); XChar "o"; XChar (ascii_of_nat 0);
          XText (chars """llo"""); XChar "l"; XText (chars """ello"""); XText (chars """olle"""); XChar "o"; XThrow IndexOutOfRange; XChar "e";
          XText (chars """llo"""); XChar "l"]).
Proof. split; [exact kstands0|]. split; [exact short0|]. apply seen_ok. vm_compute. reflexivity. Qed.
Example C213_case_undefined : let run p := k_run ConstBenign Strict (KDo (XInit 0%nat (chars "abc")) :: KDo (XInit 1%nat (chars "z")) :: p) kstate0 in
  run [KRead Ptr 0] = UB BadDeref /\ run [KEnd 0 0%nat; KRead Itr 0] = UB BadDeref /\ run [KData 0 0%nat; KAdd Ptr 0 4; KRead Ptr 0] = UB BadDeref /\
  run [KData 0 0%nat; KAdd Ptr 0 5] = UB OutOfBounds /\ run [KEnd 0 0%nat; KAdd Itr 0 1] = UB OutOfBounds /\ run [KBegin 0 0%nat; KBack Itr 0] = UB OutOfBounds /\
  run [KData 0 0%nat; KData 1 1%nat; KDiff Ptr 0 1] = UB BadDeref /\ run [KBegin 0 0%nat; KEnd 1 0%nat; KRange Itr 2%nat 1 0] = UB BadDeref /\
  run [KData 0 0%nat; KAdd Ptr 0 4; KText 1%nat 0] = UB OutOfBounds /\ run [KData 0 0%nat; KDo (XAssign 0%nat 1%nat); KRead Ptr 0] = UB BadDeref /\
  run [KData 0 0%nat; KDo (XMove 2%nat 0%nat); KRead Ptr 0] = UB BadDeref /\ run [KData 0 0%nat; KAssign 0%nat 0; KRead Ptr 0] = UB BadDeref /\
  k_run ConstUB Strict [KDo (XInit 0%nat (chars "abc")); KData 0 0%nat; KAssign 0%nat 0] kstate0 = UB ConstWrite.
Proof. cbv zeta. repeat match goal with |- _ /\ _ => split end; vm_compute; reflexivity. Qed.

(** The address of v[z] is a pointer to the character that v[z] gives. *)
Theorem C214_address : forall q t s I i v z n c, kstands t s I -> short s -> INT_MIN <= z <= INT_MAX ->
  position (Z.of_nat (length (strs s v))) z = Some n -> nth_error (strs s v) n = Some c ->
  exists t' I', k_run ConstBenign q [KAddr i v z; KRead Ptr i] t = Ok (t', [XChar c]) /\ kstands t' s I' /\ I' Ptr i = PAt v n.
Proof. exact addr_read. Qed.
Print Assumptions C214_address.

(** A pointer reads the same character after every program that does not replace its Str or set the pointer. *)
Theorem C214_lives : forall q prog t s I t' s' I' ev k i v n c, kstands t s I -> Forall kint prog -> karun prog s I s' I' ev ->
  Forall (spares k i v) prog -> I k i = PAt v n -> reads k (strs s v) n c -> k_run ConstBenign q prog t = Ok (t', ev) ->
  k_step ConstBenign q (KRead k i) t' = Ok (t', [XChar c]).
Proof. exact read_later. Qed.
Print Assumptions C214_lives.

(** After a declaration of the name, an assignment or a move that did not throw, the pointers into the Str can no longer be read. *)
Theorem C214_dies : forall q c t s I t' s' I' ev k i v n, kstands t s I -> short s -> xint c -> kastep (KDo c) s I s' I' ev -> loses c v -> quiet ev ->
  I k i = PAt v n -> k_step ConstBenign q (KDo c) t = Ok (t', ev) -> exists u, k_step ConstBenign q (KRead k i) t' = UB u.
Proof. exact read_lost. Qed.
Print Assumptions C214_dies.

Example C214_case : (exists t, k_run ConstBenign Strict
    [KDo (XInit 0%nat (chars "abc")); KAddr 0 0%nat 1; KDo (XPlus 1%nat 0%nat 0%nat); KDo (XErase 0%nat 0%nat 7 9); KDo (XSplit 0%nat 0%nat 0%nat true);
     KText 2%nat 0; KRead Ptr 0] kstate0 = Ok (t, [XThrow IndexOutOfRange; XChar "b"])) /\
  k_run ConstBenign Strict [KDo (XInit 0%nat (chars "abc")); KAddr 0 0%nat 1; KDo (XCopy 1%nat 0%nat); KDo (XAssign 0%nat 1%nat); KRead Ptr 0] kstate0 = UB BadDeref /\
  loses (XAssign 0%nat 1%nat) 0%nat /\ ~ loses (XPlus 1%nat 0%nat 0%nat) 0%nat.
Proof.
  split; [apply seen_ok; vm_compute; reflexivity|]. split; [vm_compute; reflexivity|]. split.
  - apply (loses_made (kx kstate0) _ _ (strs (kx kstate0) 1%nat)). constructor.
  - intros L. inversion L; subst. inversion H.
Qed.

(** A range-for over a Str gives every character, null characters included. *)
Theorem C215_all : forall q fuel t s I i j v, kstands t s I -> short s -> i <> j -> (length (strs s v) < fuel)%nat ->
  exists t' I', range_for ConstBenign q fuel i j v [KRead Itr i] t = Ok (t', map XChar (strs s v)) /\ kstands t' s I'.
Proof. exact range_for_reads. Qed.
Print Assumptions C215_all.

(** A range-for whose body keeps the Str and both iterators runs its body once for every character, in order. *)
Theorem C215_any_body : forall q (Inv : text -> list xevent -> xstore -> Prop) i j v txt body, i <> j ->
  (forall d x e ev t s I, txt = d ++ x :: e -> Inv d ev s -> kstands t s I -> strs s v = txt -> I Itr i = PAt v (length d) -> I Itr j = PAt v (length txt) ->
    exists t' s' I' ev', k_run ConstBenign q body t = Ok (t', ev') /\ kstands t' s' I' /\ Inv (d ++ [x]) (ev ++ ev') s' /\ strs s' v = txt /\
      I' Itr i = PAt v (length d) /\ I' Itr j = PAt v (length txt)) ->
  forall fuel t s I, kstands t s I -> Inv [] [] s -> strs s v = txt -> (length txt < fuel)%nat ->
  exists t' s' I' ev, range_for ConstBenign q fuel i j v body t = Ok (t', ev) /\ kstands t' s' I' /\ Inv txt ev s' /\ strs s' v = txt.
Proof. exact range_for_rule. Qed.
Print Assumptions C215_any_body.

(** The Str made of begin and end is a copy, the one made of rbegin and rend is reversed, also when it replaces the Str itself. *)
Theorem C215_range : forall q t s I i j u v (back : bool), kstands t s I -> short s -> i <> j ->
  exists t' I', k_run ConstBenign q [KBegin i v; KEnd j v; if back then KRevRange Itr u j i else KRange Itr u i j] t = Ok (t', []) /\
    kstands t' (set_str s u (if back then rev (strs s v) else strs s v)) I'.
Proof. exact iter_range. Qed.
Print Assumptions C215_range.

(** The Str made of two pointers is the part between them. *)
Theorem C215_part : forall q t s I i j u v a m b, kstands t s I -> short s -> i <> j -> strs s v = a ++ m ++ b ->
  exists t' I', k_run ConstBenign q [KData i v; KCopy Ptr j i; KAdd Ptr i (Z.of_nat (length a)); KAdd Ptr j (Z.of_nat (length a) + Z.of_nat (length m)); KRange Ptr u i j] t = Ok (t', []) /\
    kstands t' (set_str s u m) I'.
Proof. exact ptr_range. Qed.
Print Assumptions C215_part.

Example C215_case : let after b := se <- k_run ConstBenign Strict [KDo (XInitStd 0%nat ["a"%char; ascii_of_nat 0; "b"%char])] kstate0 ;; b (fst se) in
  (exists t, after (range_for ConstBenign Strict 4 0 1 0%nat [KRead Itr 0]) = Ok (t, [XChar "a"; XChar (ascii_of_nat 0); XChar "b"])) /\
  (exists t, after (k_run ConstBenign Strict [KBegin 0 0%nat; KEnd 1 0%nat; KRange Itr 1%nat 0 1; KDo (XEqual 0%nat 1%nat); KRevRange Itr 0%nat 1 0; KDo (XAt 0%nat 0)]) =
     Ok (t, [XBool true; XChar "b"])) /\
  (exists t, after (k_run ConstBenign Strict [KData 0 0%nat; KCopy Ptr 1 0; KAdd Ptr 0 1; KAdd Ptr 1 3; KRange Ptr 1%nat 0 1; KDo (XSize 1%nat); KDo (XAt 1%nat 1)]) =
     Ok (t, [XNum 2; XChar "b"])).
Proof. cbv zeta. repeat match goal with |- _ /\ _ => split end; apply seen_ok; vm_compute; reflexivity. Qed.

(** The Str made of a pointer has the characters from there up to the first null character, or up to the end. *)
Theorem C216_text : forall q t s I i u v a b r, kstands t s I -> short s -> strs s v = a ++ b -> until_null b r ->
  exists t' I', k_run ConstBenign q [KData i v; KAdd Ptr i (Z.of_nat (length a)); KText u i] t = Ok (t', []) /\ kstands t' (set_str s u r) I'.
Proof. exact data_text. Qed.
Print Assumptions C216_text.

(** Behind the last character a pointer reads a null character. *)
Theorem C216_end : forall q t s I i v, kstands t s I -> short s ->
  exists t' I', k_run ConstBenign q [KData i v; KAdd Ptr i (Z.of_nat (length (strs s v))); KRead Ptr i] t = Ok (t', [XChar (ascii_of_nat 0)]) /\ kstands t' s I'.
Proof. exact data_end. Qed.
Print Assumptions C216_end.

(** A loop from data() up to a null character gives the characters in front of the first null character. *)
Theorem C216_loop : forall q fuel t s I i v r, kstands t s I -> short s -> until_null (strs s v) r -> (length r < fuel)%nat ->
  exists t' I', c_for ConstBenign q fuel i v [KRead Ptr i] t = Ok (t', map XChar r) /\ kstands t' s I'.
Proof. exact c_for_reads. Qed.
Print Assumptions C216_loop.

(** The length such a loop finds is the number of characters in front of the first null character. *)
Theorem C216_length : forall q fuel t s I i j v r, kstands t s I -> short s -> i <> j -> until_null (strs s v) r -> (length r < fuel)%nat ->
  exists t' I', (t1 <- c_for ConstBenign q fuel i v [] t ;; k_run ConstBenign q [KData j v; KDiff Ptr i j] (fst t1)) = Ok (t', [XNum (Z.of_nat (length r))]) /\ kstands t' s I'.
Proof. exact c_length. Qed.
Print Assumptions C216_length.

(** Such a loop whose body keeps the Str and the pointer runs its body once for every character in front of the first null character. *)
Theorem C216_any_body : forall q (Inv : text -> list xevent -> xstore -> Prop) i v txt r body, until_null txt r ->
  (forall d x e ev t s I, r = d ++ x :: e -> Inv d ev s -> kstands t s I -> strs s v = txt -> I Ptr i = PAt v (length d) ->
    exists t' s' I' ev', k_run ConstBenign q body t = Ok (t', ev') /\ kstands t' s' I' /\ Inv (d ++ [x]) (ev ++ ev') s' /\ strs s' v = txt /\
      I' Ptr i = PAt v (length d)) ->
  forall fuel t s I, kstands t s I -> Inv [] [] s -> strs s v = txt -> (length r < fuel)%nat ->
  exists t' s' I' ev, c_for ConstBenign q fuel i v body t = Ok (t', ev) /\ kstands t' s' I' /\ Inv r ev s' /\ strs s' v = txt /\
    I' Ptr i = PAt v (length r).
Proof. exact c_for_rule. Qed.
Print Assumptions C216_any_body.

(** A Str assigned from a pointer into itself has the characters from there up to the first null character; the pointer is lost; if writing to a const member is undefined, so is the assignment. *)
Theorem C216_tail : forall q t s I i v a b r, kstands t s I -> short s -> strs s v = a ++ b -> until_null b r ->
  exists t' I', k_run ConstBenign q [KData i v; KAdd Ptr i (Z.of_nat (length a)); KAssign v i] t = Ok (t', []) /\ kstands t' (set_str s v r) I' /\ I' Ptr i = PDead /\
    (exists x, k_step ConstBenign q (KRead Ptr i) t' = UB x) /\
    exists x, k_run ConstUB q [KData i v; KAdd Ptr i (Z.of_nat (length a)); KAssign v i] t = UB x.
Proof. exact data_tail. Qed.
Print Assumptions C216_tail.

Example C216_case : let after b := se <- k_run ConstBenign Strict [KDo (XInitStd 0%nat ["a"%char; "b"%char; ascii_of_nat 0; "c"%char])] kstate0 ;; b (fst se) in
  until_null ["a"%char; "b"%char; ascii_of_nat 0; "c"%char] ["a"%char; "b"%char] /\
  (exists t, after (k_run ConstBenign Strict [KData 0 0%nat; KAdd Ptr 0 1; KText 1%nat 0; KDo (XPrint 1%nat); KAdd Ptr 0 2; KText 1%nat 0; KDo (XPrint 1%nat);
     KAdd Ptr 0 1; KText 1%nat 0; KDo (XSize 1%nat)]) = Ok (t, [XText (chars """b"""); XText (chars """c"""); XNum 0])) /\
  (exists t, after (c_for ConstBenign Strict 3 0 0%nat [KRead Ptr 0]) = Ok (t, [XChar "a"; XChar "b"])) /\
  (exists t, after (fun t => t1 <- c_for ConstBenign Strict 3 0 0%nat [] t ;; k_run ConstBenign Strict [KData 1 0%nat; KDiff Ptr 0 1; KDo (XSize 0%nat)] (fst t1)) =
     Ok (t, [XNum 2; XNum 4])) /\
  (exists t, after (k_run ConstBenign Strict [KData 0 0%nat; KAdd Ptr 0 1; KAssign 0%nat 0; KDo (XPrint 0%nat)]) = Ok (t, [XText (chars """b""")])).
Proof.
  cbv zeta. repeat match goal with |- _ /\ _ => split end; try (apply seen_ok; vm_compute; reflexivity).
  split.
  - repeat (constructor; [intros X; vm_compute in X; discriminate|]). constructor.
  - right. exists (ascii_of_nat 0), ["c"%char]. split; reflexivity.
Qed.

(** A Str that holds a null character is not equal to the Str made of its data. *)
Theorem C217_data_round_trip_refuted : exists t s I i u v, kstands t s I /\ short s /\
  forall q t' s' I', k_run ConstBenign q [KData i v; KText u i] t = Ok (t', []) -> kstands t' s' I' -> strs s' u <> strs s v.
Proof. exact data_refuted. Qed.
Print Assumptions C217_data_round_trip_refuted.

(** The Str made of data() is equal exactly if there is no null character. *)
Theorem C217_exact : forall q t s I i u v, kstands t s I -> short s ->
  exists t' s' I', k_run ConstBenign q [KData i v; KText u i] t = Ok (t', []) /\ kstands t' s' I' /\ until_null (strs s v) (strs s' u) /\
    (strs s' u = strs s v <-> Forall (fun c => byte c <> 0) (strs s v)) /\ forall w, w <> u -> strs s' w = strs s w.
Proof. exact data_round. Qed.
Print Assumptions C217_exact.

Example C217_case : exists t, k_run ConstBenign Strict
    [KDo (XInit 0%nat (chars "ab")); KData 0 0%nat; KText 1%nat 0; KDo (XEqual 0%nat 1%nat);
     KDo (XInitStd 0%nat ["a"%char; ascii_of_nat 0]); KData 0 0%nat; KText 1%nat 0; KDo (XEqual 0%nat 1%nat); KDo (XLess 1%nat 0%nat)] kstate0 =
  Ok (t, [XBool true; XBool false; XBool true]).
Proof. apply seen_ok. vm_compute. reflexivity. Qed.
