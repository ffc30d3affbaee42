(** The cases of tests/test_demo.cpp that the other test files do not contain. Lines are those of that file. *)
From Coq Require Import String Ascii ZArith List Bool.
From Verif Require Import Outcome IntModel Show StreamModel FloatModel FracModel ListModel SetModel DictModel StrModel DequeModel ComplexModel ExTools TestTools.
Import ListNotations.
Open Scope Z_scope.

Definition lit (s : string) : Int := match int_of_chars (chars s) with Ok x => x | _ => MkInt 7 [] end.
Definition eqs (o : outcome Int) (s : string) : bool := match o with Ok x => int_eqb x (lit s) | _ => false end.
Definition frac (o : outcome Fraction) (n d : Z) : bool := match o, frac_make n d with Ok f, Ok g => frac_eqb f g | _, _ => false end.
Definition str_lt (a b : str) : bool := match str_cmp a b with Lt => true | _ => false end.

(** 9-81 *)
Example usage : all
  [ eqs (int_add Benign (lit "18446744073709551617") (lit "18446744073709551617")) "36893488147419103234";
    eqs (x <- int_factorial Benign 199 (lit "5") ;; int_factorial Benign 199 x)
      "6689502913449127057588118054090372586752746333138029810295671352301633557244962989366874165271984981308157637893214090552534408589408121859898481114389650005964960521256960000000000000000000000000000";
    match str_to_integer Benign (chars "-ffffffffffffffff") 16 with Ok x => int_eqb x (lit "-18446744073709551615") | _ => false end;
    match str_replace (chars "hahaha") (chars "a") (chars "ooow~ ") with Ok t => text t "hooow~ hooow~ hooow~ " | _ => false end;
    match str_times (chars "hello! ") 2 with Ok t => text t "hello! hello! " | _ => false end;
    cx_eqb (cx_add (Cx (double_of_Z 1) (double_of_Z 2)) (Cx (double_of_Z 1) (double_of_Z 3))) (Cx (double_of_Z 2) (double_of_Z 5));
    frac (a <- frac_make 1 2 ;; b <- frac_make 1 3 ;; frac_add a b) 5 6; frac (a <- frac_make 1 2 ;; b <- frac_make 1 3 ;; frac_mod a b) 1 6 ] = true.
Proof. vm_compute. reflexivity. Qed.

(** 83-92 *)
Definition d : list (str * list Int) :=
  dict_of str_lt [(chars "first", [lit "123"; lit "456"]); (chars "second", [lit "789"]); (chars "third", [lit "12345678987654321"; lit "5"])].
Example advantage : all
  [ text (dict_print str_print (list_print int_print) d) "{""first"": [123, 456], ""second"": [789], ""third"": [12345678987654321, 5]}";
    match dict_keys str_lt d with Ok l => set_eqb str_eqb l (set_of str_lt (map chars ["first"; "second"; "third"]%string)) | _ => false end;
    eqs (l <- dict_at str_lt d (chars "third") ;; x <- list_at l (-1) ;; int_factorial Benign 199 x) "120" ] = true.
Proof. vm_compute. reflexivity. Qed.
