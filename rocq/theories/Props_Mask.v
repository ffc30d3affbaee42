(** Reading from streams with exceptions enabled: C252..C257. *)
From Coq Require Import ZArith QArith Ascii String List Bool Lia.
From Verif Require Import Outcome IntModel IntSpec StreamModel FloatModel Show FracModel FracSpec ComplexModel ComplexSpec ComplexIO ComplexTexts StrModel ExTools
  ExnStreamModel ExnStreamSpec ExnStream ExnStreamMore ExnStreamText ExnStreamLoop.
Import ListNotations.
Open Scope Z_scope.

(** Reading an Int. *)
Theorem C252_int : forall m s x, masked m x (int_extract s x) (int_xextract m s x).
Proof. exact int_masked. Qed.
Print Assumptions C252_int.

(** Reading a Fraction, where it ends without exceptions. *)
Theorem C252_fraction : forall m fuel s f, fst (frac_extract fuel s f) <> OutOfFuel -> masked m f (frac_extract fuel s f) (frac_xextract m fuel s f).
Proof. exact frac_masked. Qed.
Print Assumptions C252_fraction.

(** Reading a Complex, where it ends without exceptions. *)
Theorem C252_complex : forall m strtod fuel s z, fst (cx_extract strtod fuel s z) <> OutOfFuel -> masked m z (cx_extract strtod fuel s z) (cx_xextract m strtod fuel s z).
Proof. exact cx_masked. Qed.
Print Assumptions C252_complex.

(** "12" at the end of the input is read into an Int unless eofbit throws; "1/" into a Fraction throws std::ios_base::failure instead of std::runtime_error if failbit throws. *)
Example C252_example :
  int_xextract (Mask false true) (IStream (chars "12") false false) (MkInt 1 [7]) = (Ends (Ok tt), (IStream [] true false, MkInt 1 [2; 1])) /\
  int_xextract (Mask true false) (IStream (chars "12") false false) (MkInt 1 [7]) = (Failure, (IStream [] true false, MkInt 1 [7])) /\
  frac_extract 9 (IStream (chars "1/") false false) (Frac 1 2) = (Throw WrongFractionLiteral, (IStream [] true true, Frac 1 2)) /\
  frac_xextract (Mask false true) 9 (IStream (chars "1/") false false) (Frac 1 2) = (Failure, (IStream [] true true, Frac 1 2)) /\
  frac_xextract (Mask true false) 9 (IStream (chars "1|2") false false) (Frac 1 2) = (Failure, (IStream [] true false, Frac 1 2)) /\
  frac_xextract (Mask false true) 9 (IStream (chars "1|2") false false) (Frac 1 2) = (Ends (Throw WrongFractionLiteral), (IStream [] true false, Frac 1 2)) /\
  fst (cx_extract sample 9 (stream "1z+2j") cx_zero) = UB Indeterminate /\
  fst (cx_xextract (Mask false true) sample 9 (stream "1z+2j") cx_zero) = Failure.
Proof. repeat split. Qed.

(** Which calls that read a Fraction never end; what the others do if there is nothing to read. *)
Theorem C253_fraction : forall m s f,
  ((forall fuel, fst (frac_xextract m fuel s f) = Ends OutOfFuel) <-> unending m s) /\
  (~ unending m s -> exists n r, fst r <> Ends OutOfFuel /\ forall fuel, (n <= fuel)%nat -> frac_xextract m fuel s f = r) /\
  (nothing s -> ~ unending m s -> exists n s', reported m s' /\ forall fuel, (n <= fuel)%nat -> frac_xextract m fuel s f = (Failure, (s', f))).
Proof. exact frac_ends. Qed.
Print Assumptions C253_fraction.

(** The same for Complex. *)
Theorem C253_complex : forall m strtod s z,
  ((forall fuel, fst (cx_xextract m strtod fuel s z) = Ends OutOfFuel) <-> unending m s) /\
  (~ unending m s -> exists n r, fst r <> Ends OutOfFuel /\ forall fuel, (n <= fuel)%nat -> cx_xextract m strtod fuel s z = r) /\
  (nothing s -> ~ unending m s -> exists n s', reported m s' /\ forall fuel, (n <= fuel)%nat -> cx_xextract m strtod fuel s z = (Failure, (s', z))).
Proof. exact cx_ends. Qed.
Print Assumptions C253_complex.

(** With an exception for failbit reading a Fraction always ends. *)
Theorem C253_failbit_fraction : forall m s f, on_fail m = true ->
  exists n r, fst r <> Ends OutOfFuel /\ forall fuel, (n <= fuel)%nat -> frac_xextract m fuel s f = r.
Proof. exact frac_ends_failbit. Qed.
Print Assumptions C253_failbit_fraction.

(** With an exception for failbit reading a Complex always ends. *)
Theorem C253_failbit_complex : forall m strtod s z, on_fail m = true ->
  exists n r, fst r <> Ends OutOfFuel /\ forall fuel, (n <= fuel)%nat -> cx_xextract m strtod fuel s z = r.
Proof. exact cx_ends_failbit. Qed.
Print Assumptions C253_failbit_complex.

(** ... and is never undefined. *)
Theorem C253_complex_defined : forall m strtod fuel s z u, on_fail m = true -> fst (cx_xextract m strtod fuel s z) <> Ends (UB u).
Proof. exact cx_defined. Qed.
Print Assumptions C253_complex_defined.

(** Reading a Fraction is then undefined only for the most negative int. *)
Theorem C253_fraction_defined : forall m s f fuel u s' r, on_fail m = true -> frac_xextract m fuel s f = (Ends (UB u), (s', r)) ->
  u = SignedOverflow /\ exists ws t n d c rest, buf s = ws ++ t ++ c :: rest /\ Forall blank ws /\ fraction_text t n d /\ blank c /\ (n = INT_MIN \/ d = INT_MIN).
Proof. exact frac_undefined. Qed.
Print Assumptions C253_fraction_defined.

(** White space only: std::ios_base::failure with either bit. A stream that has failed before its end is waited for in vain if only eofbit throws. *)
Example C253_example :
  frac_xextract (Mask false true) 9 (IStream (chars "  ") false false) (Frac 1 2) = (Failure, (IStream [] true true, Frac 1 2)) /\
  frac_xextract (Mask true false) 9 (IStream (chars "  ") false false) (Frac 1 2) = (Failure, (IStream [] true false, Frac 1 2)) /\
  unending (Mask true false) (IStream (chars "1") false true) /\ unending (Mask false false) (IStream (chars "  ") false false) /\
  ~ unending (Mask false true) (IStream (chars "  ") false false) /\ nothing (IStream (chars "  ") false false) /\
  fst (frac_xextract (Mask false true) 9 (IStream (chars "-2147483648 ") false false) (Frac 1 2)) = Ends (UB SignedOverflow).
Proof.
  assert (B: Forall blank (chars "  ")) by (repeat constructor; vm_compute; discriminate). unfold unending, nothing. cbn [eofbit failbit on_eof on_fail].
  split; [reflexivity|]. split; [reflexivity|]. split; [auto|]. split; [split; [auto|split; [auto|discriminate]]|]. split; [intros (_ & ? & _); discriminate|]. split; [auto|reflexivity].
Qed.

(** Not so: at the end of the input the look at the next character fails, and the number is lost. *)
Theorem C254_refuted : ~ (forall m ws t n d rest f, on_fail m = true -> Forall blank ws -> fraction_text t n d -> fits1 n -> fits1 d -> d <> 0 -> ends rest ->
  exists fuel s' r, frac_xextract m fuel (IStream (ws ++ t ++ rest) false false) f = (Ends (Ok tt), (s', r)) /\ (qval r == inject_Z n / inject_Z d)%Q).
Proof. exact frac_not_all. Qed.
Print Assumptions C254_refuted.

(** Every fraction at the end of the input is lost, whichever bit throws. *)
Theorem C254_lost_refuted : forall m ws t n d f fuel, on_eof m = true \/ on_fail m = true -> Forall blank ws -> fraction_text t n d -> fits1 n -> fits1 d -> (length ws < fuel)%nat ->
  exists s, frac_xextract m fuel (IStream (ws ++ t) false false) f = (Failure, (s, f)).
Proof. exact frac_lost. Qed.
Print Assumptions C254_lost_refuted.

(** Exactly what is read if failbit throws: white space, then a whole number or a quotient of two numbers of type int, then a white-space character, which stays. No other text is accepted. *)
Theorem C254_exact : forall m s f s' r, on_fail m = true ->
  ((exists fuel, frac_xextract m fuel s f = (Ends (Ok tt), (s', r))) <->
   eofbit s = false /\ failbit s = false /\ exists ws t n d c rest, buf s = ws ++ t ++ c :: rest /\ Forall blank ws /\ fraction_text t n d /\
     blank c /\ s' = IStream (c :: rest) false false /\ fits1 n /\ fits1 d /\ d <> 0 /\ valid r /\ (qval r == inject_Z n / inject_Z d)%Q).
Proof. exact frac_exact. Qed.
Print Assumptions C254_exact.

(** "6/-4" is read if a space follows; the texts that are accepted without exceptions although they are no fractions (C104) are not. *)
Example C254_example :
  frac_xextract (Mask false true) 9 (IStream (chars " 6/-4 5") false false) (Frac 0 1) = (Ends (Ok tt), (IStream (chars " 5") false false, Frac (-3) 2)) /\
  frac_xextract (Mask false true) 9 (IStream (chars " 6/-4") false false) (Frac 0 1) = (Failure, (IStream [] true true, Frac 0 1)) /\
  fst (frac_xextract (Mask false true) 9 (IStream (chars "99999999999z ") false false) (Frac 0 1)) = Failure /\
  fst (frac_xextract (Mask false true) 9 (IStream (chars "+z ") false false) (Frac 0 1)) = Failure /\
  fst (frac_xextract (Mask false true) 9 (IStream (chars "1/99999999999 ") false false) (Frac 0 1)) = Failure /\
  fraction_text (chars "6/-4") 6 (-4).
Proof. do 5 (split; [reflexivity|]). apply (quotient (chars "6") 6 (chars "-4") (-4)); reflexivity. Qed.

(** Not so: a real number at the end of the input is lost. *)
Theorem C255_refuted : forall strtod x, gives strtod ["1"%char] x ->
  ~ (forall m t x y ws rest z, on_fail m = true -> complex_literal (gives strtod) d0 t x y -> Forall blank ws -> ends rest ->
  exists fuel s', cx_xextract m strtod fuel (IStream (ws ++ t ++ rest) false false) z = (Ends (Ok tt), (s', Cx x y))).
Proof. exact cx_not_all. Qed.
Print Assumptions C255_refuted.

(** Every real number at the end of the input is lost, whichever bit throws. *)
Theorem C255_real_refuted : forall m strtod t x ws z fuel, on_eof m = true \/ on_fail m = true -> number t -> gives strtod t x -> Forall blank ws -> (length ws < fuel)%nat ->
  exists s, cx_xextract m strtod fuel (IStream (ws ++ t) false false) z = (Failure, (s, z)).
Proof. exact cx_lost. Qed.
Print Assumptions C255_real_refuted.

(** Every complex number followed by white space is read. *)
Theorem C255_followed : forall m strtod t x y ws c rest z fuel, complex_literal (gives strtod) d0 t x y -> Forall blank ws -> blank c -> (length ws < fuel)%nat ->
  cx_xextract m strtod fuel (IStream (ws ++ t ++ c :: rest) false false) z = (Ends (Ok tt), (IStream (c :: rest) false false, Cx x y)).
Proof. exact cx_read. Qed.
Print Assumptions C255_followed.

(** One that is written with j is read at the end of the input too, unless eofbit throws. *)
Theorem C255_j : forall m strtod t x y ws z fuel, complex_literal (gives strtod) d0 (t ++ ["j"%char]) x y -> Forall blank ws -> (length ws < fuel)%nat ->
  (on_eof m = false -> cx_xextract m strtod fuel (IStream (ws ++ t ++ ["j"%char]) false false) z = (Ends (Ok tt), (IStream [] true false, Cx x y))) /\
  (on_eof m = true -> exists s, cx_xextract m strtod fuel (IStream (ws ++ t ++ ["j"%char]) false false) z = (Failure, (s, z))).
Proof. exact cx_last. Qed.
Print Assumptions C255_j.

Example C255_example :
  cx_xextract (Mask false true) sample 9 (stream " 1-2j") cx_zero = (Ends (Ok tt), (IStream [] true false, Cx (double_of_Z 1) (double_of_Z (-2)))) /\
  fst (cx_xextract (Mask true false) sample 9 (stream " 1-2j") cx_zero) = Failure /\ fst (cx_xextract (Mask false true) sample 9 (stream "1") cx_zero) = Failure /\
  cx_xextract (Mask true true) sample 9 (stream "1 ") cx_zero = (Ends (Ok tt), (stream " ", cx_of (double_of_Z 1))) /\ gives sample ["1"%char] (double_of_Z 1).
Proof. repeat split. Qed.

(** A loop over Fractions ends with std::ios_base::failure; it has stored every number that white space follows, and not the one at the end of the input. *)
Theorem C256_fraction_refuted : forall m items ws0 final, on_eof m = true \/ on_fail m = true -> Forall blank ws0 -> white_runs items -> Forall (fun it => valid (fst it)) items ->
  (final = [] \/ exists f, valid f /\ final = frac_print f) ->
  exists k, forall fuel, (k <= fuel)%nat ->
  read_while (frac_xextract m fuel) (Frac 0 1) fuel (IStream (ws0 ++ spaced frac_print items ++ final) false false) = (map fst items, Failure).
Proof. exact frac_loop. Qed.
Print Assumptions C256_fraction_refuted.

(** A loop over Complexes has lost the number at the end of the input if it is real, or if eofbit throws. *)
Theorem C256_complex_refuted : forall m strtod (texts : list (Complex * (list ascii * list ascii))) ws0 final rest, on_eof m = true \/ on_fail m = true -> Forall blank ws0 ->
  Forall (fun it => complex_literal (gives strtod) d0 (fst (snd it)) (re (fst it)) (im (fst it)) /\ snd (snd it) <> [] /\ Forall blank (snd (snd it))) texts ->
  (final = [] /\ rest = []) \/
  (exists x, number final /\ gives strtod final x /\ rest = []) \/
  (exists t x y, final = t ++ ["j"%char] /\ complex_literal (gives strtod) d0 final x y /\ rest = if on_eof m then [] else [Cx x y]) ->
  exists k, forall fuel, (k <= fuel)%nat ->
  read_while (cx_xextract m strtod fuel) cx_zero fuel
    (IStream (ws0 ++ flat_map (fun it => fst (snd it) ++ snd (snd it)) texts ++ final) false false) = (map fst texts ++ rest, Failure).
Proof. exact cx_loop. Qed.
Print Assumptions C256_complex_refuted.

(** A loop over Ints has stored all of them if only failbit throws. *)
Theorem C256_int : forall m items ws0 final rest, on_fail m = true -> Forall (fun c => isspace c = true) ws0 ->
  Forall (fun it => canonical (fst it) /\ snd it <> [] /\ Forall (fun c => isspace c = true) (snd it)) items ->
  (final = [] /\ rest = []) \/ (exists x, canonical x /\ final = int_print x /\ rest = if on_eof m then [] else [x]) ->
  exists k, forall fuel, (k <= fuel)%nat ->
  read_while (int_xextract m) (MkInt 0 []) fuel (IStream (ws0 ++ spaced int_print items ++ final) false false) = (map fst items ++ rest, Failure).
Proof. exact int_loop. Qed.
Print Assumptions C256_int.

Example C256_example :
  read_while (frac_xextract (Mask false true) 99) (Frac 0 1) 99 (IStream (chars "1/2 1/3") false false) = ([Frac 1 2], Failure) /\
  read_while (frac_xextract (Mask false true) 99) (Frac 0 1) 99 (IStream (chars "1/2 1/3 ") false false) = ([Frac 1 2; Frac 1 3], Failure) /\
  read_while (cx_xextract (Mask false true) sample 99) cx_zero 99 (stream "1 1-2j") = ([cx_of (double_of_Z 1); Cx (double_of_Z 1) (double_of_Z (-2))], Failure) /\
  read_while (cx_xextract (Mask false true) sample 99) cx_zero 99 (stream "1 1") = ([cx_of (double_of_Z 1)], Failure) /\
  read_while (int_xextract (Mask false true)) (MkInt 0 []) 99 (IStream (chars "4 5") false false) = ([MkInt 1 [4]; MkInt 1 [5]], Failure) /\
  read_while (int_xextract (Mask true true)) (MkInt 0 []) 99 (IStream (chars "4 5") false false) = ([MkInt 1 [4]], Failure) /\
  chars "1/2 1/3" = spaced frac_print [(Frac 1 2, [" "%char])] ++ frac_print (Frac 1 3).
Proof. repeat split. Qed.

(** A text that is not a number leaves the loop as the exception of the extraction, whatever the mask; what came before is stored. *)
Theorem C256_malformed : forall m items ws0 c rest, Forall blank ws0 -> white_runs items -> Forall (fun it => valid (fst it)) items ->
  32 < code c -> ~ 48 <= code c <= 57 -> c <> "-"%char -> c <> "+"%char ->
  exists k, forall fuel, (k <= fuel)%nat ->
  read_while (frac_xextract m fuel) (Frac 0 1) fuel (IStream (ws0 ++ spaced frac_print items ++ c :: rest) false false) = (map fst items, Ends (Throw WrongFractionLiteral)).
Proof. exact frac_loop_malformed. Qed.
Print Assumptions C256_malformed.

Example C256_malformed_example :
  read_while (frac_xextract (Mask true true) 99) (Frac 0 1) 99 (IStream (chars "1/2 x") false false) = ([Frac 1 2], Ends (Throw WrongFractionLiteral)) /\
  read_while (frac_xextract (Mask true true) 99) (Frac 0 1) 99 (IStream (chars "1/2 1/-2147483648 ") false false) = ([Frac 1 2], Ends (UB SignedOverflow)) /\
  chars "1/2 x" = spaced frac_print [(Frac 1 2, [" "%char])] ++ "x"%char :: [] /\ white_runs [(Frac 1 2, [" "%char])] /\ 32 < code "x" /\ ~ 48 <= code "x" <= 57.
Proof. do 3 (split; [reflexivity|]). split; [constructor; [split; [discriminate|repeat constructor; discriminate]|constructor]|]. change (code "x") with 120. lia. Qed.

(** Not so: std::getline empties the Str, or stores the last line, before it throws. *)
Theorem C257_refuted : ~ (forall m s old s' t, str_xextract m ConstBenign s old = (Failure, (s', t)) -> t = old).
Proof. exact not_kept. Qed.
Print Assumptions C257_refuted.

(** The Str is afterwards what it is without exceptions. *)
Theorem C257_exact : forall m s old, exists s' t, str_extract ConstBenign s old = Ok (s', t) /\
  (~ reported m s' -> str_xextract m ConstBenign s old = (Ends (Ok tt), (s', t))) /\
  (reported m s' -> str_xextract m ConstBenign s old = (Failure, (s', t))).
Proof. exact str_masked. Qed.
Print Assumptions C257_exact.

(** At the end of the input it is empty. *)
Theorem C257_end : forall m old, on_eof m = true \/ on_fail m = true ->
  str_xextract m ConstBenign (IStream [] false false) old = (Failure, (IStream [] true true, [])).
Proof. exact at_end. Qed.
Print Assumptions C257_end.

(** A last line without newline is stored; the call throws if eofbit does. *)
Theorem C257_last_line : forall m l old, ~ In "010"%char l -> l <> [] ->
  str_xextract m ConstBenign (IStream l false false) old = (if on_eof m then Failure else Ends (Ok tt), (IStream [] true false, l)).
Proof. exact last_line. Qed.
Print Assumptions C257_last_line.

(** A line that ends with a newline is read, and nothing is thrown. *)
Theorem C257_line : forall m l rest old, ~ In "010"%char l ->
  str_xextract m ConstBenign (IStream (l ++ "010"%char :: rest) false false) old = (Ends (Ok tt), (IStream rest false false, l)).
Proof. exact line_read. Qed.
Print Assumptions C257_line.

(** A stream that is not good: the Str keeps its text. *)
Theorem C257_not_good : forall m p s old, eofbit s = true \/ failbit s = true ->
  (reported m (set_fail s) -> str_xextract m p s old = (Failure, (set_fail s, old))) /\
  (~ reported m (set_fail s) -> str_xextract m p s old = (Ends (Ok tt), (set_fail s, old))).
Proof. exact not_good. Qed.
Print Assumptions C257_not_good.

(** A loop over lines has stored all of them if only failbit throws; if eofbit throws too, all but a last line without newline. *)
Theorem C257_loop : forall m ls final, on_fail m = true -> Forall (fun l => ~ In "010"%char l) ls -> ~ In "010"%char final ->
  exists k, forall fuel, (k <= fuel)%nat ->
  read_while (str_xextract m ConstBenign) [] fuel (IStream (concat (map (fun l => l ++ ["010"%char]) ls) ++ final) false false) =
    (ls ++ (match final with [] => [] | _ => if on_eof m then [] else [final] end), Failure).
Proof. exact line_loop. Qed.
Print Assumptions C257_loop.

(** Without exceptions it has stored all of them, and ends with eofbit and failbit set. *)
Theorem C257_quiet_loop : forall ls final, Forall (fun l => ~ In "010"%char l) ls -> ~ In "010"%char final ->
  exists k, forall fuel, (k <= fuel)%nat ->
  read_while (str_xextract (Mask false false) ConstBenign) [] fuel (IStream (concat (map (fun l => l ++ ["010"%char]) ls) ++ final) false false) =
    (ls ++ (match final with [] => [] | _ => [final] end), Ends (Ok (IStream [] true true))).
Proof. exact line_loop_quiet. Qed.
Print Assumptions C257_quiet_loop.

Example C257_example :
  str_xextract (Mask false true) ConstBenign (IStream [] false false) (chars "old") = (Failure, (IStream [] true true, [])) /\
  str_xextract (Mask true true) ConstBenign (IStream (chars "new") false false) (chars "old") = (Failure, (IStream [] true false, chars "new")) /\
  str_xextract (Mask false true) ConstBenign (IStream [] true false) (chars "old") = (Failure, (IStream [] true true, chars "old")) /\
  read_while (str_xextract (Mask false true) ConstBenign) [] 9 (IStream (chars "a" ++ ["010"; "010"]%char ++ chars "b c") false false) = ([chars "a"; []; chars "b c"], Failure) /\
  ~ In "010"%char (chars "b c").
Proof. do 4 (split; [reflexivity|]). cbn. intuition discriminate. Qed.
