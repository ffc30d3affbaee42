(** Set and Dict programs on mathematical sets and finite maps when a comparison may throw. *)
From Coq Require Import ZArith List Bool Ascii.
From Verif Require Import Outcome ListCallModel SetModel SetSpec DictModel DictSpec TreeModel SetTreeModel.
Import ListNotations.
Open Scope Z_scope.

(** When it answers, the answer is that of [f]. *)
Definition honest {T S X : Type} (c : T -> T -> call S X bool) (f : T -> T -> bool) : Prop :=
  forall a b s r, fst (c a b s) = inl r -> r = f a b.
(** [x] is thrown by a call of [c]. *)
Definition throws {T S X : Type} (c : T -> T -> call S X bool) (x : X) : Prop := exists a b s, fst (c a b s) = inr x.
(** A tree is left with the elements it should have. *)
Definition keeps {E : Type} (shape : tree E -> list E -> tree E) : Prop := forall t l, elems (shape t l) = l.

Section Set_.
Context {X T : Type} (lt : T -> T -> bool) (show : T -> list ascii) (may : X -> Prop).

(** The statements that compare elements. *)
Definition compares (c : tstmt T) : bool :=
  match c with
  | TCopy _ _ | TMove _ _ | TPop _ | TClear _ | TMin _ | TMax _ | TSize _ | TIsEmpty _ | TIterate _ | TPrint _ => false
  | TExtend _ _ | TExtendSet _ _ => false
  | _ => true
  end.

Inductive ucstep : tstmt T -> zstore T -> zstore T -> list (cevent X (tevent T)) -> Prop :=
| uc_done : forall c e e' ev, zstep lt show c e e' ev -> ucstep c e e' (map Plain ev)
(** An exception of the comparison: nothing has happened, *)
| uc_thrown : forall c e x, compares c = true -> may x -> ucstep c e e [Caught x]
(** except that [extend] has added the elements before the one that could not be compared. *)
| uc_extend : forall v a y b e x, may x -> ucstep (TExtend v (a ++ y :: b)) e (zset e v (either (e v) (fun z => In z a))) [Caught x]
| uc_extend_set : forall v w a y b e x, v <> w -> enumerates lt (a ++ y :: b) (e w) -> may x ->
    ucstep (TExtendSet v w) e (zset e v (either (e v) (fun z => In z a))) [Caught x].

Inductive ucrun : list (tstmt T) -> zstore T -> zstore T -> list (cevent X (tevent T)) -> Prop :=
| uc_nil : forall e, ucrun [] e e []
| uc_cons : forall c rest e e1 e2 ev1 ev2, ucstep c e e1 ev1 -> ucrun rest e1 e2 ev2 -> ucrun (c :: rest) e e2 (ev1 ++ ev2).

(** The trees stand for the mathematical sets. *)
Definition tstands (s : cstore T) (e : zstore T) : Prop := stands lt (fun v => elems (s v)) e.
End Set_.

Section Dict_.
Context {X K V : Type} (ltk : K -> K -> bool) (ltv : V -> V -> bool) (showk : K -> list ascii) (showv : V -> list ascii) (may : X -> Prop).

Definition mcompares (c : mstmt K V) : bool :=
  match c with
  | MCopy _ _ | MMove _ _ | MPop _ | MClear _ | MMin _ | MMax _ | MSize _ | MIsEmpty _ | MIterate _ | MPrint _ => false
  | MExtend _ _ | MExtendDict _ _ => false
  | _ => true
  end.

Inductive gcstep : mstmt K V -> @fstore K V -> @fstore K V -> list (cevent X (mevent K V)) -> Prop :=
| gc_done : forall c e e' ev, fstep ltk ltv showk showv c e e' ev -> gcstep c e e' (map Plain ev)
(** An exception of a comparison: nothing has happened, *)
| gc_thrown : forall c e x, mcompares c = true -> may x -> gcstep c e e [Caught x]
(** except that [extend] has added the entries before the one that could not be compared. *)
| gc_extend : forall v a y b e m x, extended (e v) a m -> may x -> gcstep (MExtend v (a ++ y :: b)) e (fset e v m) [Caught x]
| gc_extend_dict : forall v w a y b e m x, v <> w -> listing ltk (a ++ y :: b) (e w) -> extended (e v) a m -> may x ->
    gcstep (MExtendDict v w) e (fset e v m) [Caught x].

Inductive gcrun : list (mstmt K V) -> @fstore K V -> @fstore K V -> list (cevent X (mevent K V)) -> Prop :=
| gc_nil : forall e, gcrun [] e e []
| gc_cons : forall c rest e e1 e2 ev1 ev2, gcstep c e e1 ev1 -> gcrun rest e1 e2 ev2 -> gcrun (c :: rest) e e2 (ev1 ++ ev2).

(** The trees stand for the finite maps. *)
Definition gstands (s : cstore (K * V)) (e : @fstore K V) : Prop := mstands ltk (fun v => elems (s v)) e.
End Dict_.

(** ** Counting comparisons *)

(** A client that never throws and counts its comparisons. *)
Definition patient {T X} (f : T -> T -> bool) : T -> T -> call nat X bool := fun a b s => (inl (f a b), S s).
(** [m] on [t] makes at most [n] comparisons. *)
Definition spends {X E A} (m : TM nat X E A) (t : tree E) (n : nat) : Prop := forall q, (snd (snd (m (t, q))) <= q + n)%nat.
(** The longest way down. *)
Fixpoint depth {E} (t : tree E) : nat := match t with Leaf => 0%nat | Node _ l _ r => S (Nat.max (depth l) (depth r)) end.
(** A red-black tree with [h] black nodes on every way down; [c]: its root is red. *)
Inductive red_black {E} : bool -> nat -> tree E -> Prop :=
| rb_leaf : red_black false 0 Leaf
| rb_red : forall h l e r, red_black false h l -> red_black false h r -> red_black true h (Node true l e r)
| rb_black : forall h l e r c d, red_black c h l -> red_black d h r -> red_black false (S h) (Node false l e r).

(** ** For the examples *)

(** The tree of a chain: every left subtree is empty. *)
Fixpoint spine {E} (l : list E) : tree E := match l with [] => Leaf | e :: l' => Node false Leaf e (spine l') end.
Definition spines {E} (_ : tree E) (l : list E) : tree E := spine l.
(** A client whose first [s] comparisons answer [f]; the next one throws [x], and nine more will answer then. *)
Definition tired {T} (f : T -> T -> bool) (x : nat) : T -> T -> call nat nat bool := fun a b s =>
  match s with 0%nat => (inr x, 9%nat) | S n => (inl (f a b), n) end.
