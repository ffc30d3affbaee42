(** Programs over containers with every element [a] replaced by [f a]. *)
From Coq Require Import ZArith List Bool Ascii.
From Verif Require Import Outcome ListModel ListProgModel DequeModel SetModel DictModel.
Import ListNotations.
Open Scope Z_scope.

(** What an algorithm sees of a comparison that returns. *)
Definition said (o : outcome bool) : bool := match o with Ok b => b | _ => false end.

(** ** Stores and results *)

(** Every variable of [s] holds the renamed elements of that of [t]. *)
Definition renames {U T} (f : U -> T) (t : nat -> list U) (s : nat -> list T) : Prop := forall v, s v = map f (t v).
(** The second run ends like the first, with renamed variables and events. *)
Definition same_run {U T EU ET} (f : U -> T) (g : EU -> ET)
    (a : outcome ((nat -> list U) * list EU)) (b : outcome ((nat -> list T) * list ET)) : Prop :=
  match a with
  | Ok (t, ev) => exists s, b = Ok (s, map g ev) /\ renames f t s
  | Throw e => b = Throw e
  | UB u => b = UB u
  | OutOfFuel => b = OutOfFuel
  end.

Section Rename.
Context {U T : Type} (f : U -> T).

(** ** List; [LMap] and [LFilter] carry functions, so this is a relation. *)
Inductive lrename : lstmt U -> lstmt T -> Prop :=
| lr_init : forall v xs, lrename (LInit v xs) (LInit v (map f xs))
| lr_copy : forall v w, lrename (LCopy v w) (LCopy v w)
| lr_move : forall v w, lrename (LMove v w) (LMove v w)
| lr_set : forall v i x, lrename (LSet v i x) (LSet v i (f x))
| lr_get : forall v i, lrename (LGet v i) (LGet v i)
| lr_insert : forall v i x, lrename (LInsert v i x) (LInsert v i (f x))
| lr_insert_elem : forall v i k, lrename (LInsertElem v i k) (LInsertElem v i k)
| lr_remove : forall v i, lrename (LRemove v i) (LRemove v i)
| lr_append : forall v x, lrename (LAppend v x) (LAppend v (f x))
| lr_append_list : forall v w, lrename (LAppendList v w) (LAppendList v w)
| lr_sub : forall v x, lrename (LSub v x) (LSub v (f x))
| lr_times : forall v n, lrename (LTimes v n) (LTimes v n)
| lr_div : forall v x, lrename (LDiv v x) (LDiv v (f x))
| lr_shr : forall v n, lrename (LShr v n) (LShr v n)
| lr_shl : forall v n, lrename (LShl v n) (LShl v n)
| lr_reverse : forall v, lrename (LReverse v) (LReverse v)
| lr_uniquify : forall v, lrename (LUniquify v) (LUniquify v)
| lr_sort : forall v, lrename (LSort v) (LSort v)
| lr_erase : forall v a b, lrename (LErase v a b) (LErase v a b)
| lr_map : forall v g h, (forall a, h (f a) = f (g a)) -> lrename (LMap v g) (LMap v h)
| lr_filter : forall v p q, (forall a, q (f a) = p a) -> lrename (LFilter v p) (LFilter v q)
| lr_extend : forall v w, lrename (LExtend v w) (LExtend v w)
| lr_clear : forall v, lrename (LClear v) (LClear v)
| lr_slice : forall u v a b c, lrename (LSlice u v a b c) (LSlice u v a b c)
| lr_plus : forall u v w, lrename (LPlus u v w) (LPlus u v w)
| lr_plus_elem : forall u v x, lrename (LPlusElem u v x) (LPlusElem u v (f x))
| lr_minus : forall u v x, lrename (LMinus u v x) (LMinus u v (f x))
| lr_over : forall u v x, lrename (LOver u v x) (LOver u v (f x))
| lr_mult : forall u v n, lrename (LMult u v n) (LMult u v n)
| lr_index : forall v x a b, lrename (LIndex v x a b) (LIndex v (f x) a b)
| lr_contains : forall v x a b, lrename (LContains v x a b) (LContains v (f x) a b)
| lr_count : forall v x, lrename (LCount v x) (LCount v (f x))
| lr_size : forall v, lrename (LSize v) (LSize v)
| lr_is_empty : forall v, lrename (LIsEmpty v) (LIsEmpty v)
| lr_equal : forall v w, lrename (LEqual v w) (LEqual v w)
| lr_print : forall v, lrename (LPrint v) (LPrint v).

Definition levent_map (e : levent U) : levent T :=
  match e with LThrow x => LThrow x | LElem x => LElem (f x) | LBool b => LBool b | LNum z => LNum z | LText s => LText s end.

(** ** Deque *)
Definition dstmt_map (c : dstmt U) : dstmt T :=
  match c with
  | DInit v xs => DInit v (map f xs)
  | DCopy v w => DCopy v w
  | DMove v w => DMove v w
  | DBack v => DBack v
  | DFront v => DFront v
  | DGet v i => DGet v i
  | DSetBack v x => DSetBack v (f x)
  | DSetFront v x => DSetFront v (f x)
  | DSet v i x => DSet v i (f x)
  | DPushBack v x => DPushBack v (f x)
  | DPushFront v x => DPushFront v (f x)
  | DPopBack v => DPopBack v
  | DPopFront v => DPopFront v
  | DExtendBack v w => DExtendBack v w
  | DExtendFront v w => DExtendFront v w
  | DShr v n => DShr v n
  | DShl v n => DShl v n
  | DReverse v => DReverse v
  | DClear v => DClear v
  | DSize v => DSize v
  | DIsEmpty v => DIsEmpty v
  | DEqual v w => DEqual v w
  | DPrint v => DPrint v
  end.
Definition devent_map (e : devent U) : devent T :=
  match e with DThrow x => DThrow x | DElem x => DElem (f x) | DBool b => DBool b | DNum z => DNum z | DText s => DText s end.

(** ** Set *)
Definition tstmt_map (c : tstmt U) : tstmt T :=
  match c with
  | TInit v xs => TInit v (map f xs)
  | TCopy v w => TCopy v w
  | TMove v w => TMove v w
  | TAdd v x => TAdd v (f x)
  | TRemove v x => TRemove v (f x)
  | TPop v => TPop v
  | TExtend v xs => TExtend v (map f xs)
  | TExtendSet v w => TExtendSet v w
  | TClear v => TClear v
  | TAnd u v w => TAnd u v w
  | TOr u v w => TOr u v w
  | TSub u v w => TSub u v w
  | TXor u v w => TXor u v w
  | TAndA v w => TAndA v w
  | TOrA v w => TOrA v w
  | TSubA v w => TSubA v w
  | TXorA v w => TXorA v w
  | TContains v x => TContains v (f x)
  | TMin v => TMin v
  | TMax v => TMax v
  | TSize v => TSize v
  | TIsEmpty v => TIsEmpty v
  | TEqual v w => TEqual v w
  | TLess v w => TLess v w
  | TLessEq v w => TLessEq v w
  | TGreater v w => TGreater v w
  | TGreaterEq v w => TGreaterEq v w
  | TIterate v => TIterate v
  | TPrint v => TPrint v
  end.
Definition tevent_map (e : tevent U) : tevent T :=
  match e with TThrow x => TThrow x | TElem x => TElem (f x) | TBool b => TBool b | TNum z => TNum z | TText s => TText s end.
End Rename.

(** ** Dict, with keys renamed by [f] and values by [g] *)
Definition both_map {K K' V V'} (f : K -> K') (g : V -> V') (p : K * V) : K' * V' := (f (fst p), g (snd p)).
Section RenameDict.
Context {K K' V V' : Type} (f : K -> K') (g : V -> V').
Definition mstmt_map (c : mstmt K V) : mstmt K' V' :=
  match c with
  | MInit v xs => MInit v (map (both_map f g) xs)
  | MCopy v w => MCopy v w
  | MMove v w => MMove v w
  | MGet v k => MGet v (f k)
  | MSet v k x => MSet v (f k) (g x)
  | MGetOr v k x => MGetOr v (f k) (g x)
  | MContains v k => MContains v (f k)
  | MAdd v k x => MAdd v (f k) (g x)
  | MRemove v k => MRemove v (f k)
  | MPop v => MPop v
  | MExtend v xs => MExtend v (map (both_map f g) xs)
  | MExtendDict v w => MExtendDict v w
  | MClear v => MClear v
  | MMin v => MMin v
  | MMax v => MMax v
  | MKeys v => MKeys v
  | MValues v => MValues v
  | MItems v => MItems v
  | MSize v => MSize v
  | MIsEmpty v => MIsEmpty v
  | MEqual v w => MEqual v w
  | MIterate v => MIterate v
  | MPrint v => MPrint v
  end.
Definition mevent_map (e : mevent K V) : mevent K' V' :=
  match e with
  | MThrow x => MThrow x
  | MKey k => MKey (f k)
  | MVal x => MVal (g x)
  | MPair p => MPair (both_map f g p)
  | MBool b => MBool b
  | MNum z => MNum z
  | MText s => MText s
  end.
End RenameDict.
