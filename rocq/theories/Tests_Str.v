(** The cases of tests/test_str.cpp, evaluated in the model. Lines are those of that file. *)
From Coq Require Import String Ascii ZArith List Bool.
From Verif Require Import Outcome IntModel Show StreamModel FloatModel ListModel StrModel ExTools TestTools.
Import ListNotations.
Open Scope Z_scope.

(** [REQUIRE(e == "...")] *)
Definition is (o : outcome str) (s : string) : bool := match o with Ok t => str_eqb t (chars s) | _ => false end.
Definition some := chars "12345".
Definition INT_MAX := 2147483647.
Definition range : string := "Error: Index out of range.".
Definition lt (v w : string) : bool := match str_cmp (chars v) (chars w) with Lt => true | _ => false end.
Definition gt (v w : string) : bool := match str_cmp (chars v) (chars w) with Gt => true | _ => false end.

(** 9-87. Assignment with the usual effect of writing a const member. *)
Example basics_compare_assignment : all
  [ size (chars "") =? 0; str_is_empty []; size (chars "hello") =? 5; negb (str_is_empty (chars "hello"));
    str_eqb some (chars "12345"); negb (str_eqb some (chars "135")); lt "123" "12345"; lt "09999" "12345"; negb (gt "123" "12345");
    negb (gt "09999" "12345"); negb (gt "12345" "12345"); gt "123456" "12345"; gt "2" "12345"; negb (lt "123456" "12345"); negb (lt "2" "12345");
    is (str_assign ConstBenign (chars "1")) "1"; match str_move ConstBenign (chars "1") with Ok (a, b) => text a "1" && text b "" | _ => false end ] = true.
Proof. vm_compute. reflexivity. Qed.

(** 109-125 *)
Definition iota (a : Z) (n : nat) : list Z := map (fun k => a + Z.of_nat k) (seq 0 n).
Definition isc (o : outcome ascii) (z : Z) : bool := match o with Ok c => code c =? z | _ => false end.
Example access : all
  (throws (str_at some 5) range :: map (fun i => isc (str_at some i) (i + 49)) (iota 0 5) ++ map (fun i => isc (str_at some i) (i + 54)) (iota (-5) 5)) = true.
Proof. vm_compute. reflexivity. Qed.

(** 127-148 *)
Definition find (s p : string) (a b r : Z) : bool := isz (str_find (chars s) (chars p) a b) r.
Definition s5 : string := "abcdefg".
Example finding : all
  [ find "" "" 0 INT_MAX 0; find s5 "" 0 INT_MAX 0; find s5 "a" 0 INT_MAX 0; find s5 "g" 0 INT_MAX 6; find s5 "cde" 0 INT_MAX 2; find s5 s5 0 INT_MAX 0;
    find "" "" 3 99 (-1); find s5 "" 3 99 3; find s5 "a" 3 99 (-1); find s5 "g" 3 99 6; find s5 "cde" 3 99 (-1); find s5 s5 3 99 (-1) ] = true.
Proof. vm_compute. reflexivity. Qed.

(** 150-182 *)
Definition contains (p : string) (a b : Z) := str_contains some (chars p) a b.
Definition count (s p : string) (n : Z) : bool := isz (str_count (chars s) (chars p)) n.
Example examination : all
  [ yes (contains "1" 0 INT_MAX); yes (contains "5" 0 INT_MAX); no (contains "0" 0 INT_MAX); no (contains "1" 1 99); yes (contains "5" 1 99); no (contains "0" 1 99);
    count "12345" "0" 0; count "12345" "1" 1; count "aaa" "aaaa" 0; count "aaa" "aaa" 1; count "aaa" "aa" 1; count "aaa" "a" 3; count "aaa" "" 4; count "ababa" "ab" 2; count "ababa" "ba" 2;
    str_starts_with some (chars "1"); str_starts_with some some; negb (str_starts_with some (chars "2")); negb (str_starts_with some (chars "123456"));
    str_ends_with some (chars "5"); str_ends_with some some; negb (str_ends_with some (chars "4")); negb (str_ends_with some (chars "123456")) ] = true.
Proof. vm_compute. reflexivity. Qed.

(** 184-241. [pow10] is exact powers of ten rounded once, the reciprocal rounded twice; [near n k e] is [Approx(n / 10^k)] with
    a tolerance of one part in 10^12. *)
Definition pow10 (_ y : double) : double :=
  match List.find (fun k => deqb (double_of_Z k) y) (iota (-130) 261 ++ [600]) with
  | Some k => if 0 <=? k then double_of_Z (10 ^ k) else ddiv (double_of_Z 1) (double_of_Z (10 ^ (- k)))
  | None => double_of_Z 0
  end.
Definition dec (s : string) := str_to_decimal pow10 (chars s).
Definition near (s : string) (n k : Z) : bool :=
  match dec s with
  | Ok x => let want := ddiv (double_of_Z n) (double_of_Z (10 ^ k)) in
      let d := dabs (dsub x want) in
      negb (dltb (dmul (dabs want) (ddiv (double_of_Z 1) (double_of_Z (10 ^ 12)))) d) && dltb d (double_of_Z (10 ^ 150))
  | _ => false
  end.
Definition inf : double := Flocq.IEEE754.BinarySingleNaN.B754_infinity false.
Definition bad (s : string) : bool := throws (dec s) "Error: Invalid literal for to_decimal().".
Example to_decimal : all
  [ near "233.33" 23333 2; near "123.456e-3" 123456 6; match dec "1e+600" with Ok x => deqb x inf | _ => false end;
    match dec "nan" with Ok x => negb (deqb x x) | _ => false end; match dec "inf" with Ok x => deqb x inf | _ => false end;
    near "0" 0 0; near "-0" 0 0; near "+0" 0 0; near ".0" 0 0; near "0." 0 0; near "1" 1 0; near "-1" (-1) 0; near "+1" 1 0; near ".1" 1 1; near "1." 1 0;
    near "1e2" 100 0; near "-1e2" (-100) 0; near "+1e2" 100 0; near ".1e2" 10 0; near "1.e2" 100 0;
    near "1e+2" 100 0; near "-1e+2" (-100) 0; near "+1e+2" 100 0; near ".1e+2" 10 0; near "1.e+2" 100 0;
    near "1e-2" 1 2; near "-1e-2" (-1) 2; near "+1e-2" 1 2; near ".1e-2" 1 3; near "1.e-2" 1 2;
    near "-.1" (-1) 1; near "-.1e1" (-1) 0; near "-.1e-1" (-1) 2; near "-.1e+123" (- 10 ^ 122) 0;
    bad "+"; bad "."; bad "-."; bad "1 1"; bad "123a"; bad "hello" ] = true.
Proof. vm_compute. reflexivity. Qed.

(** 243-277 *)
Definition lit (s : string) : Int := match int_of_chars (chars s) with Ok x => x | _ => MkInt 7 [] end.
Definition int (s : string) (base : Z) (r : string) : bool := match str_to_integer Benign (chars s) base with Ok x => int_eqb x (lit r) | _ => false end.
Definition r : list ascii := ["013"%char].
Example to_integer : all
  [ int "233" 10 "233"; int "cafebabe" 16 "3405691582"; int "z" 36 "35"; int "ffffffffffffffff" 16 "18446744073709551615";
    int "0001000" 10 "1000"; int "1" 10 "1"; int "0" 10 "0"; int "f" 16 "15"; int "11" 2 "3"; int "zz" 36 "1295"; int "-1" 10 "-1"; int "-0" 10 "0"; int "-10" 10 "-10";
    int "-10" 16 "-16"; int "-z" 36 "-35"; int "+1" 10 "1"; int "+0" 10 "0"; int "+10" 10 "10"; int "+10" 16 "16"; int "+z" 36 "35"; int "-0101" 2 "-5"; int "-1010" 2 "-10";
    int "+0101" 2 "5"; int "+1010" 2 "10";
    match str_to_integer Benign (newline ++ r ++ newline ++ tab ++ chars "  233  " ++ tab ++ r ++ newline ++ r) 10 with Ok x => int_eqb x (lit "233") | _ => false end;
    throws (str_to_integer Benign (chars "123") 99) "Error: Invalid base for to_integer().";
    throws (str_to_integer Benign (chars "!!!") 10) "Error: Invalid literal for to_integer()." ] = true.
Proof. vm_compute. reflexivity. Qed.

(** 279-323 *)
Definition repl (s o n t : string) : bool := is (str_replace (chars s) (chars o) (chars n)) t.
Definition b : list ascii := ["008"%char].
Example reverse_case_erase_replace_strip : all
  [ is (str_reverse []) ""; is (str_reverse (chars "1")) "1"; is (str_reverse some) "54321"; text (str_upper (chars "hahaha")) "HAHAHA"; text (str_lower (chars "HAHAHA")) "hahaha";
    is (str_erase (chars s5) 0 1) "bcdefg"; is (str_erase (chars s5) 1 2) "acdefg"; is (str_erase (chars s5) 1 6) "ag"; is (str_erase (chars s5) 0 7) ""; throws (str_erase (chars s5) (-1) 99) range;
    repl s5 "a" "g" "gbcdefg"; repl s5 "g" "a" "abcdefa"; repl s5 "cde" "~~~" "ab~~~fg"; repl s5 s5 "" ""; repl s5 "" "-" "-a-b-c-d-e-f-g-"; repl s5 "" "" s5; repl "" "abc" "~~~" "";
    repl "hahaha" "h" "l" "lalala"; is (t <- str_replace (chars "hahaha") (chars "a") (chars "ooow~") ;; str_replace t (chars "ooow") (chars "o")) "ho~ho~ho~";
    is (str_strip (chars "hello") (-1)) "hello"; is (str_strip (tab ++ newline ++ chars "hello" ++ tab ++ newline) (-1)) "hello"; is (str_strip (chars "           hello           ") (-1)) "hello";
    is (str_strip (newline ++ newline ++ newline ++ newline ++ chars " " ++ tab ++ newline ++ b ++ newline ++ chars "   hello  " ++ newline ++ newline ++ tab ++ newline ++ chars " " ++ r ++ b ++ newline ++ r) (-1)) "hello";
    is (str_strip (chars "'''hello'''") 39) "hello" ] = true.
Proof. vm_compute. reflexivity. Qed.

(** 325-388 *)
Definition K : str := chars "ABCDEFGHIJK".
Definition slice (x y z : Z) (t : string) : bool := is (str_slice some x y z) t.
Example rotate_slice_append_times : all
  [ is (str_shr [] 1) ""; is (str_shr [] 2) ""; is (str_shl [] 1) ""; is (str_shl [] 2) ""; is (str_shr (chars "1") 1) "1"; is (str_shr (chars "1") 2) "1"; is (str_shl (chars "1") 1) "1";
    is (str_shl (chars "1") 2) "1"; is (str_shr K (-1)) "BCDEFGHIJKA"; is (str_shr K 0) "ABCDEFGHIJK"; is (str_shr K 1) "KABCDEFGHIJ"; is (str_shr K 3) "IJKABCDEFGH"; is (str_shr K 11) "ABCDEFGHIJK";
    is (str_shl K (-1)) "KABCDEFGHIJ"; is (str_shl K 0) "ABCDEFGHIJK"; is (str_shl K 1) "BCDEFGHIJKA"; is (str_shl K 3) "DEFGHIJKABC"; is (str_shl K 11) "ABCDEFGHIJK";
    slice (-1) 1 1 ""; slice (-1) 1 (-1) "543"; slice 1 (-1) 1 "234"; slice 1 (-1) (-1) ""; slice 0 5 1 "12345"; slice 0 5 2 "135"; slice 0 5 (-1) ""; slice 0 5 (-2) "";
    slice (-1) (-6) 1 ""; slice (-1) (-6) 2 ""; slice (-1) (-6) (-1) "54321"; slice (-1) (-6) (-2) "531"; slice 0 0 1 ""; slice 1 1 1 ""; slice (-1) (-1) 1 ""; slice (-1) (-1) (-1) "";
    throws (str_slice some 1 2 0) "Error: Slice step can not be zero."; throws (str_slice some (-7) (-6) 1) range;
    text (str_plus_char some "6"%char) "123456"; text (str_plus some (chars "67")) "1234567"; is (str_times some 0) ""; is (str_times some 1) "12345"; is (str_times some 2) "1234512345" ] = true.
Proof. vm_compute. reflexivity. Qed.

(** 390-440 *)
Definition parts (o : outcome (list str)) (l : list string) : bool := match o with Ok v => list_eqb str_eqb v (map chars l) | _ => false end.
Definition split (s p : string) (k : bool) (l : list string) : bool := parts (str_split (chars s) (chars p) k) l.
Definition join (s : string) (l : list string) (t : string) : bool := is (str_join (chars s) (map chars l)) t.
Definition code4 : string := "this is my code!".
Example split_join_format_print : all
  [ split "one, two, three" ", " false ["one"; "two"; "three"]%string; split "192.168.0.1" "." false ["192"; "168"; "0"; "1"]%string; split "   1   2   3   " " " false ["1"; "2"; "3"]%string;
    split code4 " " false ["this"; "is"; "my"; "code!"]%string; split code4 code4 false []; split code4 "!" false ["this is my code"]%string; split "aaa" "a" false []; split " " " " false [];
    split code4 code4 true [""; ""]%string; split code4 "!" true ["this is my code"; ""]%string; split "aaa" "a" true [""; ""; ""; ""]%string; split " " " " true [""; ""]%string;
    join ", " [] ""; join ", " ["a"]%string "a"; join ", " ["a"; "b"]%string "a, b"; join ", " ["a"; "b"; "c"]%string "a, b, c"; join "" ["a"; "b"; "c"]%string "abc";
    join "." ["192"; "168"; "0"; "1"]%string "192.168.0.1";
    text (str_format (chars "{}, {}, {}, {}.") (map show_int [1; 2; 3; 4])) "1, 2, 3, 4."; text (str_format (chars "I'm {}, {} years old.") [chars "Alice"; show_int 18]) "I'm Alice, 18 years old.";
    text (str_format (chars "{} -> {}") [list_print show_int [1; 2; 3]; list_print str_print (map chars ["one"; "two"; "three"]%string)]) "[1, 2, 3] -> [""one"", ""two"", ""three""]";
    text (str_print []) """"""; text (str_print (chars "1")) """1"""; text (str_print some) """12345""" ] = true.
Proof. vm_compute. reflexivity. Qed.

(** 442-450 *)
Example input :
  match extract_lines ConstBenign 3 (IStream (chars "this is line1" ++ newline ++ chars "this is line2" ++ newline ++ chars "hello!") false false) with
  | Ok (l, _) => parts (Ok l) ["this is line1"; "this is line2"; "hello!"]%string
  | _ => false
  end = true.
Proof. vm_compute. reflexivity. Qed.
