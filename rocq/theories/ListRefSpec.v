(** Programs with references into Lists, on sequences: a pointer names a position. *)
From Coq Require Import ZArith List Bool Ascii.
From Verif Require Import Outcome ListProgModel ListSpec ListProgSpec ListRefModel.
Import ListNotations.
Open Scope Z_scope.

(** A pointer was never set, points to a position of a list, or to an object that is gone. *)
Inductive lptr := LNull | LTo (v i : nat) | LGone.

(** What happens to the pointers: nothing; those into [v] from position [k] on are gone; or those into [v] are gone
    and those into [w] point into [v] now. *)
Inductive fate := Stay | Cut (v k : nat) | Given (v w : nat).

Section Spec.
Context {T : Type} (eqb lt : T -> T -> bool) (show : T -> list ascii) (grow : Z -> Z -> Z).
Notation num l := (Z.of_nat (length l)).
Notation ptrs := (nat -> lptr).
Notation caps := (nat -> Z).

Definition meets (f : fate) (P P' : ptrs) : Prop := forall r,
  match P r with
  | LTo u i =>
      match f with
      | Stay => P' r = LTo u i
      | Cut v k => (u = v /\ (k <= i)%nat /\ P' r = LGone) \/ ((u <> v \/ (i < k)%nat) /\ P' r = LTo u i)
      | Given v w => (u = v /\ P' r = LGone) \/ (u = w /\ u <> v /\ P' r = LTo v i) \/ (u <> v /\ u <> w /\ P' r = LTo u i)
      end
  | p => P' r = p
  end.

(** The list of [v] has a new capacity, at least [n]; the other capacities stay. *)
Definition resized (v : nat) (c n : Z) (K K' : caps) : Prop := K' v = Z.max n (grow c n) /\ forall u, u <> v -> K' u = K u.
Definition unsized (K K' : caps) : Prop := forall u, K' u = K u.

(** [n] elements are inserted at position [k] of [v], which has [l] elements. *)
Inductive grown (v k : nat) (l n : Z) (K : caps) : fate -> caps -> Prop :=
| g_fits : forall K', l + n <= K v -> unsized K K' -> grown v k l n K (Cut v k) K'
| g_moves : forall K', K v < l + n -> resized v (K v) (l + n) K K' -> grown v k l n K (Cut v 0) K'.

(** What a statement that takes the lists from [s] to [s'] does to the pointers and the capacities. *)
Inductive effect : lstmt T -> lstore T -> lstore T -> list (levent T) -> caps -> fate -> caps -> Prop :=
| e_throw : forall c s s' e K K', unsized K K' -> effect c s s' [LThrow e] K Stay K'
| e_read : forall c s s' ev K K',
    match c with
    | LGet _ _ | LIndex _ _ _ _ | LContains _ _ _ _ | LCount _ _ | LSize _ | LIsEmpty _ | LEqual _ _ | LPrint _ => True
    | _ => False
    end -> unsized K K' -> effect c s s' ev K Stay K'
| e_values : forall c s s' K K',
    match c with LSet _ _ _ | LShr _ _ | LShl _ _ | LReverse _ | LSort _ | LMap _ _ => True | _ => False end ->
    unsized K K' -> effect c s s' [] K Stay K'
| e_new : forall c v s s' K K',
    match c with
    | LInit u _ | LTimes u _ | LUniquify u | LSlice u _ _ _ _ | LPlus u _ _ | LPlusElem u _ _ | LMinus u _ _ | LOver u _ _ | LMult u _ _ => u = v
    | _ => False
    end -> resized v 0 (num (s' v)) K K' -> effect c s s' [] K (Cut v 0) K'
| e_copy : forall v w s s' K K', v <> w -> resized v (K v) (num (s w)) K K' -> effect (LCopy v w) s s' [] K (Cut v 0) K'
| e_copy_self : forall v s s' K K', unsized K K' -> effect (LCopy v v) s s' [] K Stay K'
| e_move : forall v w s s' K K', K' v = K w -> K' w = Z.max 0 (grow 0 0) -> (forall u, u <> v -> u <> w -> K' u = K u) ->
    effect (LMove v w) s s' [] K (Given v w) K'
| e_insert : forall v i x s s' K f K', grown v (Z.to_nat (from_back (num (s v)) i)) (num (s v)) 1 K f K' -> effect (LInsert v i x) s s' [] K f K'
| e_insert_elem : forall v i k s s' K f K', grown v (Z.to_nat (from_back (num (s v)) i)) (num (s v)) 1 K f K' ->
    effect (LInsertElem v i k) s s' [] K f K'
| e_append : forall v x s s' K f K', grown v (length (s v)) (num (s v)) 1 K f K' -> effect (LAppend v x) s s' [] K f K'
| e_append_list : forall v w s s' K f K', grown v (length (s v)) (num (s v)) (num (s w)) K f K' -> effect (LAppendList v w) s s' [] K f K'
| e_extend : forall v w s s' K f K', num (s v) + num (s w) <= INT_MAX -> grown v (length (s v)) (num (s v)) (num (s w)) K f K' ->
    effect (LExtend v w) s s' [] K f K'
| e_extend_no : forall v w s s' K K', INT_MAX < num (s v) + num (s w) -> unsized K K' -> effect (LExtend v w) s s' [] K Stay K'
| e_remove : forall v i k x s s' K K', position (num (s v)) i = Some k -> unsized K K' -> effect (LRemove v i) s s' [LElem x] K (Cut v k) K'
| e_sub : forall v x a b s s' K K', s v = a ++ x :: b -> ~ In x a -> unsized K K' -> effect (LSub v x) s s' [] K (Cut v (length a)) K'
| e_sub_absent : forall v x s s' K K', ~ In x (s v) -> unsized K K' -> effect (LSub v x) s s' [] K Stay K'
| e_erase : forall v i j s s' K K', unsized K K' -> effect (LErase v i j) s s' [] K (Cut v (Z.to_nat i)) K'
| e_div : forall v x s s' K K', unsized K K' -> effect (LDiv v x) s s' [] K (Cut v (length (s' v))) K'
| e_filter : forall v p s s' K K', unsized K K' -> effect (LFilter v p) s s' [] K (Cut v (length (s' v))) K'
| e_clear : forall v s s' K K', unsized K K' -> effect (LClear v) s s' [] K (Cut v 0) K'.

Definition lpoints (P : ptrs) (r : nat) (p : lptr) (P' : ptrs) : Prop := P' r = p /\ forall q, q <> r -> P' q = P q.

(** The pointer points to an element with this value. *)
Definition holds (s : lstore T) (P : ptrs) (r : nat) (x : T) : Prop := exists v i, P r = LTo v i /\ nth_error (s v) i = Some x.

(** [v /= *r] with the element [x] at position [i] of [v] itself (C53): when an element [y] is moved to
    position [i], what follows it is compared with [y]. *)
Inductive divided_own (l : list T) (i : nat) (x : T) : list T -> Prop :=
| d_right : (length (filter (fun y => negb (eqb y x)) l) <= i)%nat -> divided_own l i x (filter (fun y => negb (eqb y x)) l)
| d_wrong : forall p y q, l = p ++ y :: q -> y <> x -> length (filter (fun z => negb (eqb z x)) p) = i ->
    divided_own l i x (filter (fun z => negb (eqb z x)) p ++ y :: filter (fun z => negb (eqb z y)) q).

Inductive vstep : rstmt T -> lstore T -> caps -> ptrs -> lstore T -> caps -> ptrs -> list (levent T) -> Prop :=
| q_stmt : forall c s K P s' K' P' ev f, sstep eqb lt show c s s' ev -> effect c s s' ev K f K' -> meets f P P' -> vstep (RDo c) s K P s' K' P' ev
| q_addr : forall r v i k s K P P', position (num (s v)) i = Some k -> lpoints P r (LTo v k) P' -> vstep (RAddr r v i) s K P s K P' []
| q_addr_bad : forall r v i s K P, position (num (s v)) i = None -> vstep (RAddr r v i) s K P s K P [LThrow IndexOutOfRange]
| q_same : forall r q s K P P', lpoints P r (P q) P' -> vstep (RSame r q) s K P s K P' []
| q_read : forall r x s K P, holds s P r x -> vstep (RRead r) s K P s K P [LElem x]
| q_write : forall r v i a y b x s K P, P r = LTo v i -> cut (s v) a (y :: b) (Z.of_nat i) -> vstep (RWrite r x) s K P (lset s v (a ++ x :: b)) K P []
| q_append : forall v r x s K P s' K' P' ev, holds s P r x -> vstep (RDo (LAppend v x)) s K P s' K' P' ev -> vstep (RAppend v r) s K P s' K' P' ev
| q_insert : forall v i r x s K P s' K' P' ev, holds s P r x -> vstep (RDo (LInsert v i x)) s K P s' K' P' ev -> vstep (RInsert v i r) s K P s' K' P' ev
| q_sub : forall v r x s K P s' K' P' ev, holds s P r x -> vstep (RDo (LSub v x)) s K P s' K' P' ev -> vstep (RSub v r) s K P s' K' P' ev
| q_div : forall v r u i x s K P s' K' P' ev, P r = LTo u i -> u <> v -> nth_error (s u) i = Some x ->
    vstep (RDo (LDiv v x)) s K P s' K' P' ev -> vstep (RDiv v r) s K P s' K' P' ev
| q_div_own : forall v r i x l' s K P P', P r = LTo v i -> nth_error (s v) i = Some x -> divided_own (s v) i x l' ->
    meets (Cut v (length l')) P P' -> vstep (RDiv v r) s K P (lset s v l') K P' [].

Inductive vrun : list (rstmt T) -> lstore T -> caps -> ptrs -> lstore T -> caps -> ptrs -> list (levent T) -> Prop :=
| q_nil : forall s K P, vrun [] s K P s K P []
| q_cons : forall c rest s K P s1 K1 P1 s2 K2 P2 ev1 ev2,
    vstep c s K P s1 K1 P1 ev1 -> vrun rest s1 K1 P1 s2 K2 P2 ev2 -> vrun (c :: rest) s K P s2 K2 P2 (ev1 ++ ev2).

(** The addresses stand for the positions of the sequences. *)
Record vstands (h : vstate T) (s : lstore T) (K : caps) (P : ptrs) : Prop := {
  vs_view : forall v, lview h v = s v;
  vs_sized : sized s;
  vs_live : forall v a, In a (va h v) -> vl h a = true;
  vs_one : forall v w i j a, nth_error (va h v) i = Some a -> nth_error (va h w) j = Some a -> v = w /\ i = j;
  vs_old : forall a, vl h a = true -> (a < vn h)%nat;
  vs_cap : forall v, vk h v = K v;
  vs_fit : forall v, num (s v) <= K v;
  vs_ptr : forall r, match P r with
    | LNull => vr h r = None
    | LTo v i => exists a, vr h r = Some a /\ nth_error (va h v) i = Some a
    | LGone => exists a, vr h r = Some a /\ vl h a = false /\ (a < vn h)%nat
    end
}.

Definition rint_stmt (c : rstmt T) : Prop :=
  match c with
  | RDo c => int_stmt c
  | RAddr _ _ i | RInsert _ i _ => INT_MIN <= i <= INT_MAX
  | _ => True
  end.
(** The pointer is dereferenced. *)
Definition lderefs (c : rstmt T) (r : nat) : Prop :=
  match c with RRead q | RWrite q _ | RAppend _ q | RInsert _ _ q | RSub _ q | RDiv _ q => q = r | _ => False end.
End Spec.
