(** Pointers and iterators into Strs, sources/str.hpp:105-208. Definitions only.

    [data()] and [&v[i]] give a [const char*], [begin()] and [end()] a [std::string::const_iterator]. The characters of a
    [std::string] are followed by a null character, which a pointer may read and an iterator may not. Assigning to a Str, moving
    from it and the end of its life make its pointers and iterators unusable, also when the characters stay the same; this
    is expressed by a number that counts these events. A reverse iterator is the iterator [base()]. *)
From Coq Require Import ZArith List Bool Ascii.
From Verif Require Import Outcome IntModel ListModel StrModel StrProgModel.
Import ListNotations.
Open Scope Z_scope.

(** [Ptr]: [const char*]. [Itr]: [std::string::const_iterator]. Each kind has its own variables. *)
Inductive pkind := Ptr | Itr.

Record kstate := KState {
  kx : xstore;                                       (* the Str and List<Str> variables *)
  kg : xvar -> nat;                                  (* how often the characters of a Str have been replaced *)
  kp : pkind -> nat -> option (xvar * nat * nat)     (* the Str, which of its buffers, the position *)
}.

Inductive kstmt :=
| KDo (c : xstmt)                         (* a statement of StrProgModel.v *)
| KData (i : nat) (v : xvar)              (* i = v.data();                                   str.hpp:218-221 *)
| KAddr (i : nat) (v : xvar) (n : Z)      (* i = &v[n];                                      str.hpp:193-198 *)
| KBegin (i : nat) (v : xvar)             (* i = v.begin();                                  str.hpp:163-166 *)
| KEnd (i : nat) (v : xvar)               (* i = v.end();                                    str.hpp:169-172 *)
| KCopy (k : pkind) (i j : nat)           (* i = j; *)
| KAdd (k : pkind) (i : nat) (n : Z)      (* i += n; *)
| KRead (k : pkind) (i : nat)             (* emit( *i); *)
| KBack (k : pkind) (i : nat)             (* emit( *std::make_reverse_iterator(i)); *)
| KDiff (k : pkind) (i j : nat)           (* emit(i - j); *)
| KText (u : xvar) (i : nat)              (* Str u(i);                                       str.hpp:114-117 *)
| KAssign (u : xvar) (i : nat)            (* u = i;                                          str.hpp:114-117, 153-157 *)
| KRange (k : pkind) (u : xvar) (i j : nat)    (* Str u(std::string(i, j));                  str.hpp:120-123 *)
| KRevRange (k : pkind) (u : xvar) (i j : nat) (* Str u(std::string(std::make_reverse_iterator(i), std::make_reverse_iterator(j))); *).

Definition knull : ascii := ascii_of_nat 0.
(** The characters that can be read. *)
Definition spots (k : pkind) (t : list ascii) : list ascii := match k with Ptr => t ++ [knull] | Itr => t end.

(** The Strs whose characters a statement replaces: the one that is declared or assigned to, and the one that is moved from. *)
Definition replaced (c : xstmt) (w : xvar) : bool :=
  match c with
  | XInit u _ | XInitStd u _ | XCopy u _ | XAssign u _ | XPlusChar u _ _ | XPlus u _ _ | XTimes u _ _ | XShl u _ _ | XShr u _ _
  | XReverse u _ | XLower u _ | XUpper u _ | XErase u _ _ _ | XReplace u _ _ _ | XStrip u _ _ | XSlice u _ _ _ _ | XFormat u _ _
  | XJoin u _ _ | XRowAt u _ _ => Nat.eqb w u
  | XMove u v | XMoveAssign u v => Nat.eqb w u || Nat.eqb w v
  | _ => false
  end.
Definition kthrew (ev : list xevent) : bool := match ev with XThrow _ :: _ => true | _ => false end.

Section Pointers.
Context (p : const_policy) (q : policy).
Notation result := (outcome (kstate * list xevent)).

(** A statement without pointers; one that throws replaces nothing. *)
Definition k_do (c : xstmt) (s : kstate) : result :=
  r <- xstep p q c (kx s) ;;
  Ok (KState (fst r) (fun w => if replaced c w && negb (kthrew (snd r)) then S (kg s w) else kg s w) (kp s), snd r).

(** Where a pointer or iterator is. *)
Definition k_at (s : kstate) (k : pkind) (i : nat) : outcome (xvar * nat) :=
  match kp s k i with
  | Some (v, g, n) => if Nat.eqb g (kg s v) then Ok (v, n) else UB BadDeref
  | None => UB BadDeref
  end.
Definition k_put (k : pkind) (i : nat) (v : xvar) (n : nat) (s : kstate) : kstate :=
  KState (kx s) (kg s) (fun k' i' =>
    if (match k, k' with Ptr, Ptr | Itr, Itr => true | _, _ => false end) && Nat.eqb i' i then Some (v, kg s v, n) else kp s k' i').
Definition k_spots (s : kstate) (k : pkind) (v : xvar) : list ascii := spots k (strs (kx s) v).
Definition k_char (s : kstate) (k : pkind) (v : xvar) (n : nat) : outcome ascii :=
  match nth_error (k_spots s k v) n with Some c => Ok c | None => UB BadDeref end.
(** The characters from [i] up to [j]. *)
Definition k_between (s : kstate) (k : pkind) (i j : nat) : outcome (list ascii) :=
  a <- k_at s k i ;;
  b <- k_at s k j ;;
  if Nat.eqb (fst a) (fst b) && Nat.leb (snd a) (snd b)
  then Ok (firstn (snd b - snd a) (skipn (snd a) (k_spots s k (fst a))))
  else UB BadDeref.
(** What the constructor from null-terminated characters is given. *)
Definition k_chars (s : kstate) (i : nat) : outcome (list ascii) :=
  a <- k_at s Ptr i ;;
  if Nat.leb (snd a) (length (strs (kx s) (fst a))) then Ok (skipn (snd a) (k_spots s Ptr (fst a))) else UB OutOfBounds.

(** One statement. Using a pointer that was never set or is no longer valid, leaving the characters, reading behind them
    and relating pointers into different Strs are undefined. [u = i] makes a temporary and moves it. *)
Definition k_step (c : kstmt) (s : kstate) : result :=
  match c with
  | KDo c => k_do c s
  | KData i v => Ok (k_put Ptr i v 0 s, [])
  | KAddr i v n =>
      match str_at (strs (kx s) v) n with
      | Ok _ => k <- from_end (strs (kx s) v) n ;; Ok (k_put Ptr i v (Z.to_nat k) s, [])
      | Throw e => Ok (s, [XThrow e])
      | UB u => UB u
      | OutOfFuel => OutOfFuel
      end
  | KBegin i v => Ok (k_put Itr i v 0 s, [])
  | KEnd i v => Ok (k_put Itr i v (length (strs (kx s) v)) s, [])
  | KCopy k i j => a <- k_at s k j ;; Ok (k_put k i (fst a) (snd a) s, [])
  | KAdd k i n =>
      a <- k_at s k i ;;
      let m := Z.of_nat (snd a) + n in
      if (0 <=? m) && (m <=? len (k_spots s k (fst a))) then Ok (k_put k i (fst a) (Z.to_nat m) s, []) else UB OutOfBounds
  | KRead k i => a <- k_at s k i ;; c <- k_char s k (fst a) (snd a) ;; Ok (s, [XChar c])
  | KBack k i =>
      a <- k_at s k i ;;
      match snd a with
      | O => UB OutOfBounds
      | S n => c <- k_char s k (fst a) n ;; Ok (s, [XChar c])
      end
  | KDiff k i j =>
      a <- k_at s k i ;;
      b <- k_at s k j ;;
      if Nat.eqb (fst a) (fst b) then Ok (s, [XNum (Z.of_nat (snd a) - Z.of_nat (snd b))]) else UB BadDeref
  | KText u i => t <- k_chars s i ;; k_do (XInit u t) s
  | KAssign u i =>
      t <- k_chars s i ;;
      r <- str_move p (str_of_chars t) ;;
      Ok (KState (set_str (kx s) u (fst r)) (fun w => if Nat.eqb w u then S (kg s w) else kg s w) (kp s), [])
  | KRange k u i j => t <- k_between s k i j ;; k_do (XInitStd u t) s
  | KRevRange k u i j => t <- k_between s k j i ;; k_do (XInitStd u (rev t)) s
  end.

(** A program: the first undefined statement ends it. *)
Fixpoint k_run (prog : list kstmt) (s : kstate) : result :=
  match prog with
  | [] => Ok (s, [])
  | c :: rest => r <- k_step c s ;; r' <- k_run rest (fst r) ;; Ok (fst r', snd r ++ snd r')
  end.

(** [for (i = v.data(); *i; ++i) body]: the loop over null-terminated characters. *)
Fixpoint k_while (fuel : nat) (i : nat) (body : list kstmt) (s : kstate) : result :=
  match fuel with
  | O => OutOfFuel
  | S n =>
      a <- k_at s Ptr i ;;
      c <- k_char s Ptr (fst a) (snd a) ;;
      if Ascii.eqb c knull then Ok (s, [])
      else
        r <- k_run body s ;;
        r' <- k_step (KAdd Ptr i 1) (fst r) ;;
        r'' <- k_while n i body (fst r') ;;
        Ok (fst r'', snd r ++ snd r' ++ snd r'')
  end.
Definition c_for (fuel : nat) (i : nat) (v : xvar) (body : list kstmt) (s : kstate) : result :=
  r <- k_step (KData i v) s ;; k_while fuel i body (fst r).

(** [for (char c : v) body], with the iterators [i] and [j]. *)
Fixpoint k_until (fuel : nat) (i j : nat) (body : list kstmt) (s : kstate) : result :=
  match fuel with
  | O => OutOfFuel
  | S n =>
      a <- k_at s Itr i ;;
      b <- k_at s Itr j ;;
      if negb (Nat.eqb (fst a) (fst b)) then UB BadDeref
      else if Nat.eqb (snd a) (snd b) then Ok (s, [])
      else
        r <- k_run body s ;;
        r' <- k_step (KAdd Itr i 1) (fst r) ;;
        r'' <- k_until n i j body (fst r') ;;
        Ok (fst r'', snd r ++ snd r' ++ snd r'')
  end.
Definition range_for (fuel : nat) (i j : nat) (v : xvar) (body : list kstmt) (s : kstate) : result :=
  r <- k_run [KBegin i v; KEnd j v] s ;; k_until fuel i j body (fst r).
End Pointers.

(** Nothing is declared: every Str is empty, no pointer is set. *)
Definition kstate0 : kstate := KState (XStore (fun _ => []) (fun _ => [])) (fun _ => O) (fun _ _ => None).
