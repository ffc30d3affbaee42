(** Dict programs on finite maps. *)
From Coq Require Import ZArith List Bool Ascii Sorted.
From Verif Require Import Outcome ListSpec SetSpec DictModel.
Import ListNotations.
Open Scope Z_scope.

Section Maps.
Context {K V : Type}.
(** A map gives at most one value to a key. *)
Definition fmap := K -> option V.
Definition has (m : fmap) (k : K) : Prop := exists x, m k = Some x.
Definition no_entry : fmap := fun _ => None.
(** [m'] is [m] with [k] mapped to [x]. *)
Definition puts (m : fmap) (k : K) (x : V) (m' : fmap) : Prop := m' k = Some x /\ forall j, j <> k -> m' j = m j.
(** [m'] is [m] without [k]. *)
Definition drops (m : fmap) (k : K) (m' : fmap) : Prop := m' k = None /\ forall j, j <> k -> m' j = m j.
(** [x] comes with the first occurrence of [k] in the range. *)
Definition first_value (xs : list (K * V)) (k : K) (x : V) : Prop :=
  exists a b, xs = a ++ (k, x) :: b /\ forall y, ~ In (k, y) a.
(** [m'] keeps the entries of [m] and takes the first value of every other key of the range. *)
Definition extended (m : fmap) (xs : list (K * V)) (m' : fmap) : Prop :=
  forall k, (forall x, m k = Some x -> m' k = Some x) /\ (m k = None -> forall x, m' k = Some x <-> first_value xs k x).
(** [m] with the entries of [n] for keys that [m] lacks. *)
Definition joined (m n : fmap) : fmap := fun k => match m k with Some x => Some x | None => n k end.
Definition msame (m n : fmap) : Prop := forall k, m k = n k.
(** [l] lists the entries of [m] by increasing key. *)
Definition listing (ltk : K -> K -> bool) (l : list (K * V)) (m : fmap) : Prop :=
  increasing ltk (map fst l) /\ forall k x, In (k, x) l <-> m k = Some x.
Definition mfit (m n : fmap) : Prop := fit (has m) (has n).

Definition fstore := nat -> fmap.
Definition fset (e : fstore) (v : nat) (m : fmap) : fstore := fun w => if Nat.eqb w v then m else e w.
End Maps.

Section Spec.
Context {K V : Type} (ltk : K -> K -> bool) (ltv : V -> V -> bool) (showk : K -> list ascii) (showv : V -> list ascii).
Notation fmap := (@fmap K V).
Notation fstore := (@fstore K V).

(** "k: x" *)
Definition entry_text (p : K * V) : list ascii := showk (fst p) ++ ":"%char :: " "%char :: showv (snd p).

Inductive fstep : mstmt K V -> fstore -> fstore -> list (mevent K V) -> Prop :=
| f_init : forall v xs e m, extended no_entry xs m -> fstep (MInit v xs) e (fset e v m) []
| f_copy : forall v w e, fstep (MCopy v w) e (fset e v (e w)) []
| f_move : forall v w e, v <> w -> fstep (MMove v w) e (fset (fset e v (e w)) w no_entry) []
| f_get : forall v k e x, e v k = Some x -> fstep (MGet v k) e e [MVal x]
| f_get_absent : forall v k e, e v k = None -> fstep (MGet v k) e e [MThrow KeyNotFound]
| f_set : forall v k x e m, has (e v) k -> puts (e v) k x m -> fstep (MSet v k x) e (fset e v m) []
| f_set_absent : forall v k x e, e v k = None -> fstep (MSet v k x) e e [MThrow KeyNotFound]
| f_get_or : forall v k x e y, e v k = Some y -> fstep (MGetOr v k x) e e [MVal y]
| f_get_or_absent : forall v k x e, e v k = None -> fstep (MGetOr v k x) e e [MVal x]
| f_contains : forall v k e b, tells b (has (e v) k) -> fstep (MContains v k) e e [MBool b]
| f_add_new : forall v k x e n m, card (has (e v)) n -> n < INT_MAX -> e v k = None -> puts (e v) k x m ->
    fstep (MAdd v k x) e (fset e v m) [MBool true]
| f_add_old : forall v k x e n, card (has (e v)) n -> n < INT_MAX -> has (e v) k -> fstep (MAdd v k x) e e [MBool false]
| f_add_full : forall v k x e, card (has (e v)) INT_MAX -> fstep (MAdd v k x) e e [MThrow ContainerFull]
| f_remove : forall v k e b m, tells b (has (e v) k) -> drops (e v) k m -> fstep (MRemove v k) e (fset e v m) [MBool b]
| f_pop : forall v e k x m, least ltk (has (e v)) k -> e v k = Some x -> drops (e v) k m -> fstep (MPop v) e (fset e v m) [MPair (k, x)]
| f_pop_empty : forall v e, nothing (has (e v)) -> fstep (MPop v) e e [MThrow ContainerEmpty]
| f_extend : forall v xs e n m, card (has (e v)) n -> n + Z.of_nat (length xs) <= INT_MAX -> extended (e v) xs m ->
    fstep (MExtend v xs) e (fset e v m) []
| f_extend_no : forall v xs e n, card (has (e v)) n -> INT_MAX < n + Z.of_nat (length xs) -> fstep (MExtend v xs) e e []
| f_extend_dict : forall v w e, v <> w -> mfit (e v) (e w) -> fstep (MExtendDict v w) e (fset e v (joined (e v) (e w))) []
| f_extend_dict_no : forall v w e, ~ mfit (e v) (e w) -> fstep (MExtendDict v w) e e []
| f_clear : forall v e, fstep (MClear v) e (fset e v no_entry) []
| f_min : forall v e k, least ltk (has (e v)) k -> fstep (MMin v) e e [MKey k]
| f_max : forall v e k, greatest ltk (has (e v)) k -> fstep (MMax v) e e [MKey k]
| f_keys : forall v e l, enumerates ltk l (has (e v)) -> fstep (MKeys v) e e (map MKey l)
| f_values : forall v e l, enumerates ltv l (fun x => exists k, e v k = Some x) -> fstep (MValues v) e e (map MVal l)
| f_items : forall v e l, listing ltk l (e v) -> fstep (MItems v) e e (map MPair l)
| f_size : forall v e n, card (has (e v)) n -> fstep (MSize v) e e [MNum n]
| f_is_empty : forall v e b, tells b (nothing (has (e v))) -> fstep (MIsEmpty v) e e [MBool b]
| f_equal_ : forall v w e b, tells b (msame (e v) (e w)) -> fstep (MEqual v w) e e [MBool b]
| f_iterate : forall v e l, listing ltk l (e v) -> fstep (MIterate v) e e (map MPair l)
| f_print : forall v e l, listing ltk l (e v) -> fstep (MPrint v) e e [MText ("{"%char :: commas (map entry_text l) ++ ["}"%char])].

Inductive frun : list (mstmt K V) -> fstore -> fstore -> list (mevent K V) -> Prop :=
| f_nil : forall e, frun [] e e []
| f_cons : forall c rest e e1 e2 ev1 ev2, fstep c e e1 ev1 -> frun rest e1 e2 ev2 -> frun (c :: rest) e e2 (ev1 ++ ev2).

(** The concrete dicts stand for the finite maps. *)
Definition mstands (s : mstore K V) (e : fstore) : Prop :=
  forall v, listing ltk (s v) (e v) /\ Z.of_nat (length (s v)) <= INT_MAX.
End Spec.

Definition mint_stmt {K V} (c : mstmt K V) : Prop :=
  match c with MInit _ xs => Z.of_nat (length xs) <= INT_MAX | _ => True end.
