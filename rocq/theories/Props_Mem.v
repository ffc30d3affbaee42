(** Properties of [Int] on a machine whose memory may run out: C222-C225. *)
From Coq Require Import ZArith Ascii String List Bool Lia.
From Verif Require Import Outcome IntModel IntSpec IntProgModel IntProgSpec ExTools IntMemModel IntMemSpec IntMem IntMemSem IntMemMore IntMemProg.
Import ListNotations.
Open Scope Z_scope.

(** The unary and binary operators and the functions of number theory give the object they give with enough memory, or throw std::bad_alloc because an allocation failed. *)
Theorem C222_operators : forall (grow : nat -> nat -> nat) (ok : nat -> bool) p fuel,
  (forall o x, fits x -> gives ok is_int (m_un grow ok p fuel o x) (eval_un p fuel o (forget x))) /\
  (forall o x y, gives ok is_int (m_binary grow ok p fuel o x y) (eval_bin p fuel o (forget x) (forget y))) /\
  (forall b e m, gives ok is_int (m_pow grow ok p fuel b e m) (int_pow p fuel (forget b) (forget e) (forget m))) /\
  (forall o x, gives ok eq (m_query grow ok p fuel o x) (eval_query p fuel o (forget x))).
Proof. exact (fun grow ok p fuel => conj (un_gives grow ok p fuel) (conj (binary_gives grow ok p fuel) (conj (pow_gives grow ok p fuel) (query_gives grow ok p fuel)))). Qed.
Print Assumptions C222_operators.

(** So do the constructors. *)
Theorem C222_constructors : forall (grow : nat -> nat -> nat) (ok : nat -> bool) n cs x,
  gives ok is_int (m_of_int grow ok n) (int_of_int n) /\ gives ok is_int (m_of_chars grow ok cs) (int_of_chars cs) /\
  gives ok is_int (m_copy ok x) (Ok (forget x)).
Proof. exact (fun grow ok n cs x => conj (of_int_gives grow ok n) (conj (of_chars_gives grow ok cs) (copy_gives ok x))). Qed.
Print Assumptions C222_constructors.

(** So do the members that change the object. *)
Theorem C222_members : forall (grow : nat -> nat -> nat) (ok : nat -> bool) p x y, fits x ->
  (forall o same, does ok x (m_compound grow ok p o same y) (compound p o same (forget x) (forget y)) (fun _ => True)) /\
  does ok x (m_assign_copy ok y) (Ok (forget y)) (fun _ => True) /\
  does ok x (m_inc grow ok) (int_inc (forget x)) (fun _ => True) /\
  does ok x (m_dec grow ok) (int_dec (forget x)) (fun _ => True).
Proof. exact members_do. Qed.
Print Assumptions C222_members.

(** std::bad_alloc is thrown exactly when an allocation of the call failed. *)
Theorem C222_iff : forall (grow : nat -> nat -> nat) (ok : nat -> bool) p fuel o x y k, (exists k', m_binary grow ok p fuel o x y k = (MFail FBadAlloc, k')) <->
  short ok k (snd (m_binary grow ok p fuel o x y k)).
Proof. exact binary_short. Qed.
Print Assumptions C222_iff.

(** 999 * 999 makes five allocations; then the fourth one fails. *)
Example C222_case : fits (with_room (MkInt 1 [9; 9; 9]) 3) /\
  m_binary (fun _ n => n) (fun _ => true) Benign 0 BMul (with_room (MkInt 1 [9; 9; 9]) 3) (with_room (MkInt 1 [9; 9; 9]) 3) 0%nat =
    (MRet (with_room (MkInt 1 [1; 0; 0; 8; 9; 9]) 6), 5%nat) /\
  m_binary (fun _ n => n) (fun k => negb (Nat.eqb k 3)) Benign 0 BMul (with_room (MkInt 1 [9; 9; 9]) 3) (with_room (MkInt 1 [9; 9; 9]) 3) 0%nat =
    (MFail FBadAlloc, 4%nat).
Proof. split; [unfold fits; cbn; lia|]. vm_compute. auto. Qed.

(** x = y with x = 5 and y = -12 leaves -5 in x. *)
Theorem C223_refuted : exists ok x y k, fits x /\ repr (forget x) 5 /\ repr (forget y) (-12) /\
  fst (m_assign_copy ok y (x, k)) = MFail FBadAlloc /\ repr (forget (fst (snd (m_assign_copy ok y (x, k))))) (-5).
Proof. exact copy_not_strong. Qed.
Print Assumptions C223_refuted.

(** So does x *= y when the product does not fit. *)
Theorem C223_mul : exists ok x y, fits x /\ repr (forget x) 5 /\ repr (forget y) (-12) /\
  fst (m_compound (fun s n => n) ok Benign AMul false y (x, 0%nat)) = MFail FBadAlloc /\
  repr (forget (fst (snd (m_compound (fun s n => n) ok Benign AMul false y (x, 0%nat))))) (-5).
Proof. exact mul_not_strong. Qed.
Print Assumptions C223_mul.

(** x /= y and x %= y with x = -97 and y = 5 leave 47. *)
Theorem C223_div : exists ok x y, fits x /\ repr (forget x) (-97) /\ repr (forget y) 5 /\
  fst (m_compound (fun s n => n) ok Benign ADiv false y (x, 0%nat)) = MFail FBadAlloc /\
  repr (forget (fst (snd (m_compound (fun s n => n) ok Benign ADiv false y (x, 0%nat))))) 47 /\
  exists ok', fst (m_compound (fun s n => n) ok' Benign AMod false y (x, 0%nat)) = MFail FBadAlloc /\
  repr (forget (fst (snd (m_compound (fun s n => n) ok' Benign AMod false y (x, 0%nat))))) 47.
Proof. exact div_not_strong. Qed.
Print Assumptions C223_div.

(** What the compound assignments may leave; -= leaves the object as it was, and so does += unless it is zero. *)
Theorem C223_exact : forall (grow : nat -> nat -> nat) (ok : nat -> bool) p o same x y a b, fits x -> repr (forget x) a -> repr (forget y) b -> (same = true -> x = y) ->
  does ok x (m_compound grow ok p o same y) (compound p o same (forget x) (forget y))
    (fun x' => (exists a', after o a b a' /\ repr (forget x') a') \/ (o = AAdd /\ a = 0 /\ b <> 0 /\ wreck x' (Z.sgn b))).
Proof. exact compound_harm. Qed.
Print Assumptions C223_exact.

(** What x = y may leave: the new sign with the old digits. *)
Theorem C223_copy : forall (ok : nat -> bool) x y a b, fits x -> repr (forget x) a -> repr (forget y) b ->
  does ok x (m_assign_copy ok y) (Ok (forget y))
    (fun x' => (a <> 0 /\ b <> 0 /\ repr (forget x') (Z.sgn b * Z.abs a)) \/ (a = 0 /\ b <> 0 /\ wreck x' (Z.sgn b))).
Proof. exact copy_harm. Qed.
Print Assumptions C223_copy.

(** x = y does not fail if the digits fit into the capacity. *)
Theorem C223_copy_fits : forall (ok : nat -> bool) x y k, (length (items (mvec y)) <= room (mvec x))%nat ->
  m_assign_copy ok y (x, k) = (MRet tt, (with_room (forget y) (room (mvec x)), k)).
Proof. exact copy_fits. Qed.
Print Assumptions C223_copy_fits.

(** ++ and -- of a non-zero number leave it as it was; towards zero they do not fail. *)
Theorem C223_steps : forall (grow : nat -> nat -> nat) (ok : nat -> bool) x a, fits x -> repr (forget x) a -> a <> 0 ->
  does ok x (m_inc grow ok) (int_inc (forget x)) (fun x' => 0 < a /\ x' = x) /\
  does ok x (m_dec grow ok) (int_dec (forget x)) (fun x' => a < 0 /\ x' = x).
Proof. exact steps_strong. Qed.
Print Assumptions C223_steps.

(** An assignment v = f(...) of a value-returning function leaves all variables as they were. *)
Theorem C223_values : forall v m s k s' k' ev, store_in v m s k = Ok (s', k', ev) -> In MEBadAlloc ev -> s' = s.
Proof. exact store_strong. Qed.
Print Assumptions C223_values.

(** The product needs one allocation more than there are; its target keeps its value. *)
Example C223_case : fits (with_room (MkInt 1 [5]) 1) /\ repr (MkInt 1 [5]) 5 /\ repr (MkInt (-1) [2; 1]) (-12) /\ midway (-97) 5 47 /\
  after AMul 5 (-12) (-5) /\
  (length (items (mvec (with_room (MkInt (-1) [2; 1])%Z 2))) <= room (mvec (with_room (MkInt 1 [5])%Z 2)))%nat /\
  match mrun (fun s n => n) (fun k => Nat.ltb k 5) Benign 20 [SInt 0%nat 7; SUn UNeg 1%nat 0%nat; SBin BMul 0%nat 0%nat 1%nat; SPrint 0%nat] (fun _ => mzero) 0 with
  | Ok (s', k', ev) => ev = [MEBadAlloc; ME (EText (chars "7"))] /\ k' = 6%nat
  | _ => False
  end.
Proof.
  split; [unfold fits; cbn; lia|]. split; [apply repr_check; reflexivity|]. split; [apply repr_check; reflexivity|].
  split; [exists 10; lia|]. split; [right; cbn; lia|]. split; [cbn; lia|]. vm_compute. auto.
Qed.

(** ++x with x = 0 leaves a sign without digits, and printing that is undefined. *)
Theorem C224_refuted : exists ok x, fits x /\ repr (forget x) 0 /\ fst (m_inc (fun s n => n) ok (x, 0%nat)) = MFail FBadAlloc /\
  (forall z, ~ repr (forget (fst (snd (m_inc (fun s n => n) ok (x, 0%nat))))) z) /\
  m_print (fst (snd (m_inc (fun s n => n) ok (x, 0%nat)))) = UB BadDeref.
Proof. exact inc_wreck. Qed.
Print Assumptions C224_refuted.

(** All four ways to get there: ++, --, = and += on zero, if the vector has no room. *)
Theorem C224_wreck : forall (grow : nat -> nat -> nat) (ok : nat -> bool) p x y k b, repr (forget x) 0 -> repr (forget y) b -> b <> 0 -> room (mvec x) = 0%nat -> ok k = false ->
  (fst (m_inc grow ok (x, k)) = MFail FBadAlloc /\ wreck (fst (snd (m_inc grow ok (x, k)))) 1) /\
  (fst (m_dec grow ok (x, k)) = MFail FBadAlloc /\ wreck (fst (snd (m_dec grow ok (x, k)))) (-1)) /\
  (fst (m_assign_copy ok y (x, k)) = MFail FBadAlloc /\ wreck (fst (snd (m_assign_copy ok y (x, k)))) (Z.sgn b)) /\
  (fst (m_add_assign grow ok p y (x, k)) = MFail FBadAlloc /\ wreck (fst (snd (m_add_assign grow ok p y (x, k)))) (Z.sgn b)).
Proof. exact wrecks. Qed.
Print Assumptions C224_wreck.

(** Such an object is no integer, and printing it is undefined. *)
Theorem C224_print : forall x s, wreck x s -> (forall z, ~ repr (forget x) z) /\ m_print x = UB BadDeref.
Proof. exact wreck_print. Qed.
Print Assumptions C224_print.

(** It says of itself that it is not zero; it is positive or negative according to the sign and has no digits. *)
Theorem C224_queries : forall x s, wreck x s -> is_zero (forget x) = false /\ is_positive (forget x) = (s =? 1) /\ is_negative (forget x) = (s =? -1) /\
  is_even (forget x) = UB OutOfBounds /\ int_digits (forget x) = Ok 0.
Proof. exact wreck_queries. Qed.
Print Assumptions C224_queries.

(** A non-zero number stays a number, whatever fails. *)
Theorem C224_nonzero : forall (grow : nat -> nat -> nat) (ok : nat -> bool) p o same x y a b, fits x -> repr (forget x) a -> repr (forget y) b -> (same = true -> x = y) -> a <> 0 ->
  does ok x (m_compound grow ok p o same y) (compound p o same (forget x) (forget y)) (fun x' => exists a', repr (forget x') a') /\
  does ok x (m_assign_copy ok y) (Ok (forget y)) (fun x' => exists a', repr (forget x') a') /\
  does ok x (m_inc grow ok) (int_inc (forget x)) (fun x' => exists a', repr (forget x') a') /\
  does ok x (m_dec grow ok) (int_dec (forget x)) (fun x' => exists a', repr (forget x') a').
Proof. exact nonzero_stays. Qed.
Print Assumptions C224_nonzero.

(** An assignment that does not fail makes any object a copy again. *)
Theorem C224_repair : forall (ok : nat -> bool) x y k u x' k', fits x -> m_assign_copy ok y (x, k) = (MRet u, (x', k')) -> forget x' = forget y /\ fits x'.
Proof. exact copy_repairs. Qed.
Print Assumptions C224_repair.

Example C224_case : fits mzero /\ repr (forget mzero) 0 /\ repr (MkInt (-1) [2; 1]) (-12) /\ wreck (MI (-1) (Vec [] 0)) (-1) /\
  repr (MkInt 1 [5]) 5 /\
  m_assign_copy (fun _ => true) (with_room (MkInt 1 [5]) 1) (MI (-1) (Vec [] 0), 0%nat) = (MRet tt, (with_room (MkInt 1 [5]) 1, 1%nat)).
Proof.
  split; [unfold fits; cbn; lia|]. split; [apply repr_check; reflexivity|]. split; [apply repr_check; reflexivity|].
  split; [split; [reflexivity|split; [reflexivity|auto]]|]. split; [apply repr_check; reflexivity|]. vm_compute. reflexivity.
Qed.

(** A program in which every statement is allowed whatever failed before behaves like one on integers whose statements may fail with the effects of C223, up to the first statement that leaves a sign without digits, if there is one. *)
Theorem C225_programs : forall (grow : nat -> nat -> nat) (ok : nat -> bool) prog s k e, stands s e -> zsafe prog e ->
  (exists n s' k' e' ev, (forall fuel, (n <= fuel)%nat -> mrun grow ok Benign fuel prog s k = Ok (s', k', ev)) /\
     (k <= k')%nat /\ zmrun prog e e' ev /\ stands s' e' /\ (In MEBadAlloc ev <-> short ok k k')) \/
  (exists prog1 c prog2 n s1 k1 e1 ev1 s2 k2 v sg, prog = prog1 ++ c :: prog2 /\
     (forall fuel, (n <= fuel)%nat -> mrun grow ok Benign fuel prog1 s k = Ok (s1, k1, ev1)) /\
     zmrun prog1 e e1 ev1 /\ stands s1 e1 /\ (k <= k1)%nat /\
     (forall fuel, (n <= fuel)%nat -> mstep grow ok Benign fuel c s1 k1 = Ok (s2, k2, [MEBadAlloc])) /\
     short ok k1 k2 /\ zwreck c e1 v sg /\ wreck (s2 v) sg /\ fits (s2 v) /\
     (forall w, w <> v -> repr (forget (s2 w)) (e1 w) /\ fits (s2 w))).
Proof. exact mrun_spec. Qed.
Print Assumptions C225_programs.

(** If no allocation fails, it is the program on integers of C34. *)
Theorem C225_plenty : forall (grow : nat -> nat -> nat) (ok : nat -> bool) prog s k e, (forall j, ok j = true) -> stands s e -> zsafe prog e ->
  exists n s' k' e' ev, (forall fuel, (n <= fuel)%nat -> mrun grow ok Benign fuel prog s k = Ok (s', k', map ME ev)) /\
    zrun prog e e' ev /\ stands s' e'.
Proof. exact mrun_plenty. Qed.
Print Assumptions C225_plenty.

(** If the client catches no std::bad_alloc, the integers are those of a machine with enough memory. *)
Theorem C225_quiet : forall prog e e' ev, zmrun prog e e' ev -> ~ In MEBadAlloc ev -> exists ev0, zrun prog e e' ev0 /\ ev = map ME ev0.
Proof. exact zmrun_quiet. Qed.
Print Assumptions C225_quiet.

(** Programs that store only results of functions, and compare, query, print and move, leave no sign without digits. *)
Theorem C225_unwreckable : forall (grow : nat -> nat -> nat) (ok : nat -> bool) prog s k e, stands s e -> zsafe prog e -> (forall c, In c prog -> forall e v sg, ~ zwreck c e v sg) ->
  exists n s' k' e' ev, (forall fuel, (n <= fuel)%nat -> mrun grow ok Benign fuel prog s k = Ok (s', k', ev)) /\
     zmrun prog e e' ev /\ stands s' e'.
Proof. exact mrun_safe. Qed.
Print Assumptions C225_unwreckable.

(** If besides every statement that fails leaves all variables as they were, a program is a subsequence of itself run with enough memory. *)
Theorem C225_strong : forall prog e e' ev, zmrun prog e e' ev -> (forall c, In c prog -> indirect c = true \/ forall e e' , ~ zmstep c e e' [MEBadAlloc]) ->
  exists prog' ev', skips prog' prog /\ zrun prog' e e' ev' /\ ev' = usual ev.
Proof. exact zmrun_skips. Qed.
Print Assumptions C225_strong.

(** Allocation 4 is one of [b = a * a]; [b] stays zero. In the second program [++c] fails, and printing [c] is undefined. *)
Example C225_case : stands (fun _ => mzero) (fun _ => 0) /\
  zsafe [SInt 0%nat 99; SBin BMul 1%nat 0%nat 0%nat; SUn UNeg 2%nat 1%nat; SPrint 2%nat] (fun _ => 0) /\
  (forall c, In c [SInt 0%nat 99; SBin BMul 1%nat 0%nat 0%nat; SUn UNeg 2%nat 1%nat; SPrint 2%nat] -> forall e v sg, ~ zwreck c e v sg) /\
  match mrun (fun s n => n) (fun k => negb (Nat.eqb k 4)) Benign 20 [SInt 0%nat 99; SBin BMul 1%nat 0%nat 0%nat; SUn UNeg 2%nat 0%nat; SPrint 2%nat; SPrint 1%nat] (fun _ => mzero) 0 with
  | Ok (s', k', ev) => ev = [MEBadAlloc; ME (EText (chars "-99")); ME (EText (chars "0"))] /\ short (fun k => negb (Nat.eqb k 4)) 0 k'
  | _ => False
  end /\
  match mrun (fun s n => n) (fun k => Nat.ltb k 1) Benign 20 [SInt 0%nat 5; SChars 1%nat (chars "-12"); SInc 2%nat; SPrint 0%nat; SPrint 2%nat] (fun _ => mzero) 0 with
  | UB BadDeref => True
  | _ => False
  end.
Proof.
  split; [intros v; split; [apply repr_check; reflexivity|unfold fits; cbn; lia]|].
  split; [cbn [zsafe allowed]; split; [unfold INT_MIN, INT_MAX; lia|intros]; repeat split; auto|].
  split; [intros c Hc e v sg W; cbn in Hc; decompose [or] Hc; subst; try contradiction; inversion W|].
  split; [vm_compute; split; [reflexivity|exists 4%nat; split; [lia|reflexivity]]|]. vm_compute. exact Logic.I.
Qed.
