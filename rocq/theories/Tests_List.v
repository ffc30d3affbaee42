(** The cases of tests/test_list.cpp, evaluated in the model. Lines are those of that file. *)
From Coq Require Import String Ascii ZArith List Bool.
From Verif Require Import Outcome IntModel Show ListModel ExTools TestTools.
Import ListNotations.
Open Scope Z_scope.

(** [REQUIRE(e == List<int>{...})] *)
Definition is (o : outcome (list Z)) (l : list Z) : bool := match o with Ok v => list_eqb Z.eqb v l | _ => false end.
(** the same for an expression that changes the list [v] and returns it *)
Definition on (v : list Z) (m : M (list Z) unit) (l : list Z) : bool := is (on_copy m v) l.
Definition empty : list Z := [].
Definition one : list Z := [1].
Definition some : list Z := [1; 2; 3; 4; 5].
Definition iota (a : Z) (n : nat) : list Z := map (fun k => a + Z.of_nat k) (seq 0 n).
Definition lt (v w : list Z) : bool := match list_cmp Z.compare v w with Lt => true | _ => false end.
Definition gt (v w : list Z) : bool := match list_cmp Z.compare v w with Gt => true | _ => false end.
Definition range : string := "Error: Index out of range.".
Definition INT_MAX := 2147483647.

(** 23-61, 69-100 *)
Example basics_compare : all
  [ size empty =? 0; list_is_empty empty; size some =? 5; negb (list_is_empty some);
    is (Ok some) [1; 2; 3; 4; 5]; negb (is (Ok [1; 3; 5]) some); lt [1; 2; 3] some; lt [0; 9; 9; 9; 9] some; negb (gt [1; 2; 3] some);
    negb (gt [0; 9; 9; 9; 9] some); negb (gt some some); gt [1; 2; 3; 4; 5; 6] some; gt [2] some; negb (lt [1; 2; 3; 4; 5; 6] some);
    negb (lt [2] some); negb (lt some some) ] = true.
Proof. vm_compute. reflexivity. Qed.

(** 135-158 *)
Example access : all
  ([ throws (list_at some 5) range;
     match list_set 0 0 some with (Ok _, v) => isz (list_at v 0) 0 && match list_set (-1) 999 v with (Ok _, w) => isz (list_at w (-1)) 999 | _ => false end | _ => false end ]
   ++ map (fun i => isz (list_at some i) (i + 1)) (iota 0 5) ++ map (fun i => isz (list_at some i) (i + 6)) (iota (-5) 5)) = true.
Proof. vm_compute. reflexivity. Qed.

(** 160-186 *)
Example examination : all
  [ Nat.eqb (list_find Z.eqb some 1) 0; Nat.eqb (list_find Z.eqb some 5) 4; Nat.eqb (list_find Z.eqb some 0) 5;
    isz (list_index Z.eqb some 1 0 INT_MAX) 0; isz (list_index Z.eqb some 5 0 INT_MAX) 4; isz (list_index Z.eqb some 0 0 INT_MAX) (-1);
    isz (list_index Z.eqb some 1 1 99) (-1); isz (list_index Z.eqb some 5 1 99) 4; isz (list_index Z.eqb some 0 1 99) (-1);
    yes (list_contains Z.eqb some 1 0 INT_MAX); yes (list_contains Z.eqb some 5 0 INT_MAX); no (list_contains Z.eqb some 0 0 INT_MAX);
    no (list_contains Z.eqb some 1 1 99); yes (list_contains Z.eqb some 5 1 99); no (list_contains Z.eqb some 0 1 99);
    list_count Z.eqb some 0 =? 0; list_count Z.eqb some 1 =? 1 ] = true.
Proof. vm_compute. reflexivity. Qed.

(** 188-238 *)
Definition popped (m : outcome Z * list Z) (x : Z) : bool := isz (fst m) x.
Example insert_remove : all
  [ throws' (list_insert 999 0 empty) range;
    on [] (list_insert 0 233) [233]; on [233] (list_insert 0 1) [1; 233]; on [1; 233] (list_insert 2 999) [1; 233; 999];
    on [1; 233; 999] (list_insert 1 5) [1; 5; 233; 999]; on [1; 5; 233; 999] (list_insert (-1) (-1)) [1; 5; 233; -1; 999];
    throws' (list_remove 999 some) range;
    let a := list_remove (-2) some in let b := list_remove 1 (snd a) in let c := list_remove 0 (snd b) in
    let d := list_remove 0 (snd c) in let e := list_remove 0 (snd d) in let f := list_remove 0 (snd e) in
    popped a 4 && popped b 2 && popped c 1 && popped d 3 && popped e 5 && throws' f "Error: The container is empty." ] = true.
Proof. vm_compute. reflexivity. Qed.

(** 240-288 *)
Example append_remove_repeat : all
  [ on [] (list_append 2) [2]; on [2] (list_append 3) [2; 3]; on [2; 3] (list_append 3) [2; 3; 3];
    on [2; 3; 3; 3; 3] (list_append_list [0; 0] false) [2; 3; 3; 3; 3; 0; 0];
    on some (list_subtract Z.eqb 1) [2; 3; 4; 5]; on [2; 3; 4; 5] (list_subtract Z.eqb 2) [3; 4; 5]; on [3; 4; 5] (list_subtract Z.eqb 3) [4; 5];
    on [4; 5] (list_subtract Z.eqb 4) [5]; on [5] (list_subtract Z.eqb 5) []; on [] (list_subtract Z.eqb 6) [];
    throws' (list_times_assign 0 (-1) some) "Error: Times to repeat can not be less than zero.";
    on some (list_times_assign 0 1) some; on some (list_times_assign 0 2) (some ++ some); on (some ++ some) (list_times_assign 0 0) [];
    on [1; 2; 3; 4; 5; 4; 3; 2; 1] (list_divide Z.eqb (Val 1)) [2; 3; 4; 5; 4; 3; 2]; on [2; 3; 4; 5; 4; 3; 2] (list_divide Z.eqb (Val 2)) [3; 4; 5; 4; 3];
    on [3; 4; 5; 4; 3] (list_divide Z.eqb (Val 3)) [4; 5; 4]; on [4; 5; 4] (list_divide Z.eqb (Val 4)) [5]; on [5] (list_divide Z.eqb (Val 5)) [];
    on [] (list_divide Z.eqb (Val 6)) [] ] = true.
Proof. vm_compute. reflexivity. Qed.

(** Lines 250 and 251 append a list to itself and expect the doubled list; std::vector::insert does not allow it. *)
Example append_self : on_copy (list_append_list [2; 3; 3; 3; 3] true) [2; 3; 3; 3; 3] = UB SelfRange.
Proof. vm_compute. reflexivity. Qed.

(** 290-327. The list of line 326 is shortened. *)
Example rotate_reverse_uniquify : all
  [ on [] (list_shr 1) []; on [] (list_shr 2) []; on [] (list_shl 1) []; on [] (list_shl 2) [];
    on [1] (list_shr 1) [1]; on [1] (list_shr 2) [1]; on [1] (list_shl 1) [1]; on [1] (list_shl 2) [1];
    on some (list_shr (-1)) [2; 3; 4; 5; 1]; on some (list_shr 0) some; on some (list_shr 1) [5; 1; 2; 3; 4];
    on some (list_shr 3) [3; 4; 5; 1; 2]; on some (list_shr 5) some;
    on some (list_shl (-1)) [5; 1; 2; 3; 4]; on some (list_shl 0) some; on some (list_shl 1) [2; 3; 4; 5; 1];
    on some (list_shl 3) [4; 5; 1; 2; 3]; on some (list_shl 5) some;
    on [] list_reverse []; on [1] list_reverse [1]; on some list_reverse [5; 4; 3; 2; 1];
    on [1; 2; 2; 3; 3; 3] (list_uniquify Z.eqb) [1; 2; 3]; on [1; 2; 3; 1; 2; 3; 1; 2; 3] (list_uniquify Z.eqb) [1; 2; 3];
    on (repeat 0 1000) (list_uniquify Z.eqb) [0] ] = true.
Proof. vm_compute. reflexivity. Qed.

(** 329-365 *)
Definition person : Type := (string * Z)%type.
Definition persons : list person := [("Alice"%string, 18); ("Sakura"%string, 19); ("Homura"%string, 20); ("Mei"%string, 17); ("Yuzu"%string, 18)].
Definition younger (a b : person) : bool := snd a <? snd b.
Definition before (a b : person) : bool := match String.compare (fst a) (fst b) with Lt => true | _ => false end.
Definition same (a b : person) : bool := String.eqb (fst a) (fst b) && (snd a =? snd b).
Example sort : all
  [ on [1; 3; 5; 7; 9; 8; 6; 4; 2; 0] (list_sort Z.ltb) [0; 1; 2; 3; 4; 5; 6; 7; 8; 9];
    on [0; 1; 2; 3; 4; 5; 6; 7; 8; 9] (list_sort Z.gtb) [9; 8; 7; 6; 5; 4; 3; 2; 1; 0];
    match list_sort younger persons with
    | (Ok _, v) => list_eqb same v [("Mei"%string, 17); ("Alice"%string, 18); ("Yuzu"%string, 18); ("Sakura"%string, 19); ("Homura"%string, 20)]
        && list_eqb same (snd (list_sort before v)) [("Alice"%string, 18); ("Homura"%string, 20); ("Mei"%string, 17); ("Sakura"%string, 19); ("Yuzu"%string, 18)]
    | _ => false
    end ] = true.
Proof. vm_compute. reflexivity. Qed.

(** 367-427. [filter] with the usual effect of the overlapping copy. *)
Definition seven := iota 1 7.
Example erase_map_filter_extend_clear : all
  [ on seven (list_erase 0 1) [2; 3; 4; 5; 6; 7]; on seven (list_erase 1 2) [1; 3; 4; 5; 6; 7]; on seven (list_erase 1 6) [1; 7]; on seven (list_erase 0 7) [];
    throws' (list_erase (-1) 99 some) range;
    list_eqb Z.eqb (snd (list_map (fun s x => (s, x * 2)) tt some)) [2; 4; 6; 8; 10]; list_eqb Z.eqb (snd (list_map (fun s _ => (s, 1)) tt some)) [1; 1; 1; 1; 1];
    match list_map (fun s x => (s ++ show_int x ++ [" "%char], x)) [] [1; 1; 1; 1; 1] with (Ok s, _) => text s "1 1 1 1 1 " | _ => false end;
    on some (list_filter false (fun x => x mod 2 =? 0)) [2; 4]; on [2; 4] (list_filter false (fun x => x mod 2 =? 1)) [];
    on [] (list_extend []) []; on [] (list_extend one) [1]; on [1] (list_extend some) [1; 1; 2; 3; 4; 5];
    on [1; 1; 2; 3; 4; 5] (list_extend [0; 9]) [1; 1; 2; 3; 4; 5; 0; 9];
    on some list_clear []; on [] list_clear [] ] = true.
Proof. vm_compute. reflexivity. Qed.

(** 429-454 *)
Definition slice (a b c : Z) (l : list Z) : bool := is (list_slice some a b c) l.
Example slices : all
  [ slice (-1) 1 1 []; slice (-1) 1 (-1) [5; 4; 3]; slice 1 (-1) 1 [2; 3; 4]; slice 1 (-1) (-1) [];
    slice 0 5 1 some; slice 0 5 2 [1; 3; 5]; slice 0 5 (-1) []; slice 0 5 (-2) [];
    slice (-1) (-6) 1 []; slice (-1) (-6) 2 []; slice (-1) (-6) (-1) [5; 4; 3; 2; 1]; slice (-1) (-6) (-2) [5; 3; 1];
    slice 0 0 1 []; slice 1 1 1 []; slice (-1) (-1) 1 []; slice (-1) (-1) (-1) [];
    throws (list_slice some 1 2 0) "Error: Slice step can not be zero."; throws (list_slice some (-7) (-6) 1) range ] = true.
Proof. vm_compute. reflexivity. Qed.

(** 456-491 *)
Example production_print : all
  [ is (list_plus some 6) [1; 2; 3; 4; 5; 6]; is (list_plus_list some [6; 7]) [1; 2; 3; 4; 5; 6; 7]; is (list_minus Z.eqb some 5) [1; 2; 3; 4];
    is (list_minus Z.eqb some 6) some; is (list_times 0 some 0) []; is (list_times 0 some 1) some; is (list_times 0 some 2) (some ++ some);
    is (list_over Z.eqb some 5) [1; 2; 3; 4]; is (list_over Z.eqb some 6) some;
    text (list_print show_int empty) "[]"; text (list_print show_int one) "[1]"; text (list_print show_int some) "[1, 2, 3, 4, 5]" ] = true.
Proof. vm_compute. reflexivity. Qed.
