(** The cases of tests/test_set.cpp, evaluated in the model. Lines are those of that file. *)
From Coq Require Import String Ascii ZArith List Bool.
From Verif Require Import Outcome IntModel Show ListModel SetModel ExTools TestTools.
Import ListNotations.
Open Scope Z_scope.

Definition mk (l : list Z) : list Z := set_of Z.ltb l.
Definition eq (a b : list Z) : bool := set_eqb Z.eqb a b.
Definition empty := mk [].
Definition one := mk [1].
Definition some := mk [1; 2; 3; 4; 5].
Definition none : string := "Error: The container is empty.".

(** 9-86 *)
Example basics_compare : all
  [ size empty =? 0; set_is_empty empty; size some =? 5; negb (set_is_empty some); eq (mk [5; 4; 3; 2; 1; 2; 3; 4; 5]) some;
    negb (eq one some); negb (eq empty one); set_lt Z.ltb (mk [5; 1]) some; set_lt Z.ltb empty one; set_le Z.ltb some some; set_le Z.ltb empty one;
    set_gt Z.ltb (mk [0; 1; 2; 3; 4; 5]) some; set_gt Z.ltb one empty; set_ge Z.ltb some some; set_ge Z.ltb one empty;
    negb (set_lt Z.ltb (mk [0; 1]) (mk [2; 3])); negb (set_gt Z.ltb (mk [0; 1]) (mk [2; 3])); negb (eq (mk [0; 1]) (mk [2; 3])) ] = true.
Proof. vm_compute. reflexivity. Qed.

(** 121-138 *)
Example examination : all
  [ set_contains Z.ltb some 1; negb (set_contains Z.ltb some 0); isz (set_min some) 1; throws (set_min empty) none; isz (set_max some) 5; throws (set_max empty) none ] = true.
Proof. vm_compute. reflexivity. Qed.

(** 140-186 *)
Fixpoint every (m : Z -> M (list Z) bool) (b : bool) (xs a : list Z) : bool * list Z :=
  match xs with
  | [] => (true, a)
  | x :: xs' => match m x a with (Ok c, a') => let (r, a'') := every m b xs' a' in (Bool.eqb b c && r, a'') | (_, a') => (false, a') end
  end.
Definition is (r : bool * list Z) (l : list Z) : bool := fst r && eq (snd r) l.
Fixpoint pops (xs a : list Z) : bool :=
  match xs with
  | [] => throws' (set_pop a) none
  | x :: xs' => match set_pop a with (Ok y, a') => (y =? x) && pops xs' a' | _ => false end
  end.
Example add_remove_pop : all
  [ is (every (set_add Z.ltb) true [3; 1; 2; 5; 4] empty) some; is (every (set_add Z.ltb) false [4; 5; 2; 1; 3] some) some;
    is (every (set_remove Z.ltb) true [3; 1; 2; 5; 4] some) empty; is (every (set_remove Z.ltb) false [4; 5; 2; 1; 3] empty) empty;
    pops [1; 2; 3; 4; 5] some ] = true.
Proof. vm_compute. reflexivity. Qed.

(** 188-244 *)
Definition odd := mk [1; 3; 5; 7; 9].
Definition on (v : list Z) (m : M (list Z) unit) (l : list Z) : bool := match on_copy m v with Ok a => eq a l | _ => false end.
Example ops_extend_clear_print : all
  [ eq (set_and Z.ltb some odd) [1; 3; 5]; eq (set_or Z.ltb some odd) [1; 2; 3; 4; 5; 7; 9]; eq (set_sub Z.ltb some odd) [2; 4]; eq (set_xor Z.ltb some odd) [2; 4; 7; 9];
    eq (set_and Z.ltb empty empty) []; eq (set_or Z.ltb empty empty) []; eq (set_sub Z.ltb empty empty) []; eq (set_xor Z.ltb empty empty) [];
    on empty (set_extend Z.ltb one) one; on one (set_extend Z.ltb some) some; on some (set_extend Z.ltb [0; 9]) [0; 1; 2; 3; 4; 5; 9];
    on some set_clear []; on [] set_clear [];
    text (set_print show_int empty) "{}"; text (set_print show_int one) "{1}"; text (set_print show_int some) "{1, 2, 3, 4, 5}" ] = true.
Proof. vm_compute. reflexivity. Qed.
