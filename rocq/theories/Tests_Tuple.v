(** The cases of tests/test_tuple.cpp, evaluated in the model. Lines are those of that file. *)
From Coq Require Import String Ascii ZArith List Bool.
From Verif Require Import Outcome IntModel Show TupleModel ExTools TestTools.
Import ListNotations.
Open Scope Z_scope.

(** Values are ints, halves for doubles, characters. *)
Inductive ty := TInt | TDouble | TChar.
Definition same (u v : ty) : {u = v} + {u <> v}. Proof. decide equality. Defined.
Definition el (u : ty) : Type := match u with TChar => ascii | _ => Z end.
Definition eqv (u : ty) : el u -> el u -> bool := match u with TInt => Z.eqb | TDouble => Z.eqb | TChar => Ascii.eqb end.
Definition show (u : ty) : el u -> list ascii :=
  match u with TInt => show_int | TDouble => fun x => show_int (x / 2) ++ (if x mod 2 =? 0 then [] else chars ".5") | TChar => fun c => [c] end.
Definition I (z : Z) : arg el := existT _ TInt z.
Definition D (z : Z) : arg el := existT _ TDouble z.
Definition C (c : ascii) : arg el := existT _ TChar c.

Definition empty := make_tuple (el := el) [].
Definition one := make_tuple [I 1].
Definition some := make_tuple [I 1; D 5; C "A"].
Definition eq {us vs} (t : tuple el us) (s : tuple el vs) : bool := tuple_eqb same eqv t s.
Definition ne {us vs} (t : tuple el us) (s : tuple el vs) : bool := tuple_neqb same eqv t s.
Definition rest_is {us vs} (t : tuple el us) (s : tuple el vs) : bool := match tuple_rest t with Some (existT _ _ r) => eq r s | None => false end.
Definition got {us} (t : tuple el us) (i : nat) (a : arg el) : bool := match tuple_get t i with Some x => eq (make_tuple [x]) (make_tuple [a]) | None => false end.

(** 9-89. A member of type [Tuple<>] (line 72) is left out. *)
Example tests : all
  [ tuple_size empty =? 0; tuple_size one =? 1; tuple_size (make_tuple [I 1; D 5]) =? 2; tuple_size some =? 3;
    eq empty empty; ne empty one; ne empty some; ne one empty; eq one one; ne one some; ne some empty; ne some one; eq some some;
    rest_is some (make_tuple [D 5; C "A"]); rest_is (make_tuple [D 5; C "A"]) (make_tuple [C "A"]); rest_is (make_tuple [C "A"]) empty;
    got some 0 (I 1); got some 1 (D 5); got some 2 (C "A");
    text (tuple_print show empty) "()"; text (tuple_print show one) "(1,)"; text (tuple_print show some) "(1, 2.5, A)" ] = true.
Proof. vm_compute. reflexivity. Qed.
