(** The cases of tests/test_dict.cpp, evaluated in the model. Lines are those of that file. *)
From Coq Require Import String Ascii ZArith List Bool.
From Verif Require Import Outcome IntModel Show ListModel SetModel DictModel ExTools TestTools.
Import ListNotations.
Open Scope Z_scope.

Definition slt (a b : string) : bool := match String.compare a b with Lt => true | _ => false end.
Definition dict := list (Z * string).
Definition mk (l : dict) : dict := dict_of Z.ltb l.
Definition eq (a b : dict) : bool := dict_eqb Z.eqb String.eqb a b.
Definition empty := mk [].
Definition one := mk [(1, "one"%string)].
Definition some := mk [(1, "one"); (2, "two"); (3, "three")]%string.
Definition none : string := "Error: The container is empty.".

(** 9-64 *)
Example basics_compare : all
  [ size empty =? 0; dict_is_empty empty; size some =? 3; negb (dict_is_empty some); eq (mk []) empty; eq (mk [(3, "three"); (1, "one"); (2, "two")]%string) some;
    negb (eq one empty); negb (eq (mk [(1, "one"); (2, "two"); (3, "three!")]%string) some) ] = true.
Proof. vm_compute. reflexivity. Qed.

(** 100-123 *)
Definition words : list (string * Z) := dict_of slt [("one"%string, 1); ("two"%string, 2); ("three"%string, 3)].
Example access : all
  [ isz (dict_get slt words "one"%string 233) 1; isz (dict_get slt words "not exist"%string 233) 233; isz (dict_at slt words "one"%string) 1; isz (dict_at slt words "two"%string) 2; isz (dict_at slt words "three"%string) 3;
    match dict_set slt "one"%string 1111 words with (Ok _, d) => isz (dict_at slt d "one"%string) 1111 | _ => false end;
    throws (dict_at slt words "four"%string) "Error: Key is not found in the dictionary." ] = true.
Proof. vm_compute. reflexivity. Qed.

(** 125-149 *)
Example examination_keys_values_items : all
  [ dict_contains Z.ltb some 1; dict_contains Z.ltb some 3; negb (dict_contains Z.ltb some 0); isz (dict_min some) 1; isz (dict_max some) 3;
    match dict_keys Z.ltb some with Ok l => set_eqb Z.eqb l (set_of Z.ltb [1; 2; 3]) | _ => false end;
    match dict_values slt some with Ok l => set_eqb String.eqb l (set_of slt ["one"; "two"; "three"]%string) | _ => false end;
    match dict_items Z.ltb slt some with Ok l => eq l some | _ => false end ] = true.
Proof. vm_compute. reflexivity. Qed.

(** 151-187 *)
Fixpoint every {A} (m : A -> M dict bool) (b : bool) (xs : list A) (d : dict) : bool * dict :=
  match xs with
  | [] => (true, d)
  | x :: xs' => match m x d with (Ok c, d') => let (r, d'') := every m b xs' d' in (Bool.eqb b c && r, d'') | (_, d') => (false, d') end
  end.
Definition is (r : bool * dict) (l : dict) : bool := fst r && eq (snd r) l.
Fixpoint pops (xs : list (Z * string)) (d : dict) : bool :=
  match xs with
  | [] => throws' (dict_pop d) none
  | x :: xs' => match dict_pop d with (Ok y, d') => (fst y =? fst x) && String.eqb (snd y) (snd x) && pops xs' d' | _ => false end
  end.
Definition three := [(3, "three"); (1, "one"); (2, "two")]%string.
Example add_remove_pop : all
  [ is (every (fun p => dict_add Z.ltb (fst p) (snd p)) true three empty) some; is (every (fun p => dict_add Z.ltb (fst p) (snd p)) false three some) some;
    is (every (dict_remove Z.ltb) true [3; 1; 2] some) empty; is (every (dict_remove Z.ltb) false [2; 1; 3] empty) empty;
    pops [(1, "one"); (2, "two"); (3, "three")]%string some ] = true.
Proof. vm_compute. reflexivity. Qed.

(** 189-234 *)
Definition on (v : dict) (m : M dict unit) (l : dict) : bool := match on_copy m v with Ok a => eq a l | _ => false end.
Definition four := mk [(1, "one"); (2, "two"); (3, "three"); (4, "four")]%string.
Example extend_clear_print : all
  [ on empty (dict_extend Z.ltb one) one; on one (dict_extend Z.ltb some) some; on some (dict_extend Z.ltb [(4, "four"%string)]) four;
    match dict_items Z.ltb slt four with
    | Ok s => on (mk [(1, "111"%string)]) (dict_extend Z.ltb s) (mk [(1, "111"); (2, "two"); (3, "three"); (4, "four")]%string)
    | _ => false
    end;
    on some dict_clear []; on [] dict_clear [];
    text (dict_print show_int chars empty) "{}"; text (dict_print show_int chars one) "{1: one}"; text (dict_print show_int chars some) "{1: one, 2: two, 3: three}" ] = true.
Proof. vm_compute. reflexivity. Qed.
