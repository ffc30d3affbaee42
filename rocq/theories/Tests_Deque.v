(** The cases of tests/test_deque.cpp, evaluated in the model. Lines are those of that file. *)
From Coq Require Import String Ascii ZArith List Bool.
From Verif Require Import Outcome IntModel Show ListModel DequeModel ExTools TestTools.
Import ListNotations.
Open Scope Z_scope.

Definition is (o : outcome (list Z)) (l : list Z) : bool := match o with Ok v => deq_eqb Z.eqb v l | _ => false end.
Definition on (v : list Z) (m : M (list Z) unit) (l : list Z) : bool := is (on_copy m v) l.
Definition empty : list Z := [].
Definition some : list Z := [1; 2; 3; 4; 5].
Definition lt (v w : list Z) : bool := match deq_cmp Z.compare v w with Lt => true | _ => false end.
Definition gt (v w : list Z) : bool := match deq_cmp Z.compare v w with Gt => true | _ => false end.
Definition none : string := "Error: The container is empty.".

(** 9-80 *)
Example basics_compare : all
  [ size empty =? 0; deq_is_empty empty; size some =? 5; negb (deq_is_empty some); is (Ok some) some; negb (is (Ok [1; 3; 5]) some);
    lt [0; 9; 9; 9; 9] some; negb (gt [0; 9; 9; 9; 9] some); negb (gt some some); gt [2] some; negb (lt [2] some); negb (lt some some) ] = true.
Proof. vm_compute. reflexivity. Qed.

(** 115-126 *)
Example access : all
  [ throws (deq_back empty) none; throws (deq_front empty) none; throws (deq_at empty 0) "Error: Index out of range.";
    isz (x <- deq_back some ;; Ok (x + 1)) 6; on some (deq_set_back 6) [1; 2; 3; 4; 6]; isz (x <- deq_front some ;; Ok (x - 1)) 0;
    on [1; 2; 3; 4; 6] (deq_set_front 0) [0; 2; 3; 4; 6]; isz (x <- deq_at [0; 2; 3; 4; 6] (-1) ;; Ok (x + 1)) 7;
    on [0; 2; 3; 4; 6] (deq_set (-1) 7) [0; 2; 3; 4; 7]; isz (x <- deq_at [0; 2; 3; 4; 7] 0 ;; Ok (x - 1)) (-1) ] = true.
Proof. vm_compute. reflexivity. Qed.

(** 128-162 *)
Definition hundred : list Z := map Z.of_nat (seq 0 100).
Fixpoint pushed (push : Z -> M (list Z) unit) (xs q : list Z) : outcome (list Z) :=
  match xs with [] => Ok q | x :: xs' => q' <- on_copy (push x) q ;; pushed push xs' q' end.
Fixpoint pops (pop : M (list Z) Z) (xs q : list Z) : bool :=
  match xs with
  | [] => size q =? 0
  | x :: xs' => match pop q with (Ok y, q') => (y =? x) && pops pop xs' q' | _ => false end
  end.
Example push_pop : all
  [ throws' (deq_pop_back empty) none; throws' (deq_pop_front empty) none;
    match pushed deq_push_back hundred [] with Ok q => (size q =? 100) && pops deq_pop_back (rev hundred) q | _ => false end;
    match pushed deq_push_front hundred [] with Ok q => (size q =? 100) && pops deq_pop_front (rev hundred) q | _ => false end ] = true.
Proof. vm_compute. reflexivity. Qed.

(** 164-194. Line 177 inserts a part of the deque into the deque itself, which std::deque::insert does not allow; not transcribed. *)
Example extend : all
  [ on [] (deq_extend_back [1]) [1]; on [1] (deq_extend_back some) [1; 1; 2; 3; 4; 5];
    on [1; 1; 2; 3; 4; 5] (deq_extend_front [1]) [1; 1; 1; 2; 3; 4; 5]; on [1; 1; 1; 2; 3; 4; 5] (deq_extend_front some) [1; 2; 3; 4; 5; 1; 1; 1; 2; 3; 4; 5];
    on some (deq_extend_back [0; 9]) [1; 2; 3; 4; 5; 0; 9]; on some (deq_extend_front [0; 9]) [0; 9; 1; 2; 3; 4; 5] ] = true.
Proof. vm_compute. reflexivity. Qed.

(** 196-258 *)
Example rotate_reverse_clear_print : all
  [ on [] (deq_shr 1) []; on [] (deq_shr 2) []; on [] (deq_shl 1) []; on [] (deq_shl 2) [];
    on [1] (deq_shr 1) [1]; on [1] (deq_shr 2) [1]; on [1] (deq_shl 1) [1]; on [1] (deq_shl 2) [1];
    on some (deq_shr 1) [5; 1; 2; 3; 4]; on [5; 1; 2; 3; 4] (deq_shr 2) [3; 4; 5; 1; 2]; on [3; 4; 5; 1; 2] (deq_shl 1) [4; 5; 1; 2; 3];
    on [4; 5; 1; 2; 3] (deq_shl 2) some; on some (deq_shr 233) [3; 4; 5; 1; 2]; on [3; 4; 5; 1; 2] (deq_shr (-233)) some;
    on some (deq_shl 233) [4; 5; 1; 2; 3]; on [4; 5; 1; 2; 3] (deq_shl (-233)) some;
    on [] deq_reverse []; on [1] deq_reverse [1]; on some deq_reverse [5; 4; 3; 2; 1]; on some deq_clear []; on [] deq_clear [];
    text (deq_print show_int empty) "<>"; text (deq_print show_int [1]) "<1>"; text (deq_print show_int some) "<1, 2, 3, 4, 5>" ] = true.
Proof. vm_compute. reflexivity. Qed.
