(** Programs with pointers and iterators into Strs, on texts: a pointer names a position. *)
From Coq Require Import ZArith List Bool Ascii.
From Verif Require Import Outcome ListSpec StrSpec StrProgModel StrProgSpec StrPtrModel.
Import ListNotations.
Open Scope Z_scope.

(** A pointer was never set, is at a position, or is of no more use. *)
Inductive kcur := PNone | PAt (v : xvar) (n : nat) | PDead.
Notation kcurs := (pkind -> nat -> kcur).

(** What can be read: a pointer also finds the null character behind the text. *)
Definition reads (k : pkind) (t : text) (n : nat) (c : ascii) : Prop :=
  nth_error t n = Some c \/ (k = Ptr /\ n = length t /\ byte c = 0).
(** The last position: an iterator stops behind the text, a pointer behind the null character. *)
Definition last (k : pkind) (t : text) : nat := match k with Ptr => S (length t) | Itr => length t end.
(** [m] is what lies between two positions. *)
Definition stretch (k : pkind) (t : text) (a b : nat) (m : text) : Prop :=
  (exists x y, t = x ++ m ++ y /\ length x = a /\ (a + length m = b)%nat) \/
  (k = Ptr /\ b = S (length t) /\ exists x m' c, t = x ++ m' /\ byte c = 0 /\ m = m' ++ [c] /\ length x = a) \/
  (k = Ptr /\ a = S (length t) /\ b = a /\ m = []).

(** The statements after which the pointers into [v] are of no more use. *)
Inductive loses : xstmt -> xvar -> Prop :=
| loses_made : forall s c u r, computes s c u r -> loses c u
| loses_target : forall u v, loses (XMove u v) u
| loses_source : forall u v, loses (XMove u v) v
| loses_assigned : forall u v, loses (XMoveAssign u v) u
| loses_moved : forall u v, loses (XMoveAssign u v) v.
Definition quiet (ev : list xevent) : Prop := forall e, ev <> [XThrow e].
Definition kept (L : xvar -> Prop) (I I' : kcurs) : Prop := forall k i,
  match I k i with
  | PAt v n => (L v /\ I' k i = PDead) \/ (~ L v /\ I' k i = PAt v n)
  | x => I' k i = x
  end.
Definition kput (I : kcurs) (k : pkind) (i : nat) (x : kcur) (I' : kcurs) : Prop :=
  I' k i = x /\ forall k' j, (k' <> k \/ j <> i) -> I' k' j = I k' j.

Inductive kastep : kstmt -> xstore -> kcurs -> xstore -> kcurs -> list xevent -> Prop :=
| k_stmt : forall c s I s' I' ev, astep c s s' ev -> kept (fun v => loses c v /\ quiet ev) I I' -> kastep (KDo c) s I s' I' ev
| k_data : forall i v s I I', kput I Ptr i (PAt v 0) I' -> kastep (KData i v) s I s I' []
| k_addr : forall i v z n s I I', position (num (strs s v)) z = Some n -> kput I Ptr i (PAt v n) I' -> kastep (KAddr i v z) s I s I' []
| k_addr_throw : forall i v z s I, position (num (strs s v)) z = None -> kastep (KAddr i v z) s I s I [XThrow IndexOutOfRange]
| k_begin : forall i v s I I', kput I Itr i (PAt v 0) I' -> kastep (KBegin i v) s I s I' []
| k_end : forall i v s I I', kput I Itr i (PAt v (length (strs s v))) I' -> kastep (KEnd i v) s I s I' []
| k_copy : forall k i j v n s I I', I k j = PAt v n -> kput I k i (PAt v n) I' -> kastep (KCopy k i j) s I s I' []
| k_add : forall k i z v n m s I I', I k i = PAt v n -> Z.of_nat m = Z.of_nat n + z -> (m <= last k (strs s v))%nat -> kput I k i (PAt v m) I' ->
    kastep (KAdd k i z) s I s I' []
| k_read : forall k i v n c s I, I k i = PAt v n -> reads k (strs s v) n c -> kastep (KRead k i) s I s I [XChar c]
| k_back : forall k i v n c s I, I k i = PAt v (S n) -> reads k (strs s v) n c -> kastep (KBack k i) s I s I [XChar c]
| k_diff : forall k i j v n m s I, I k i = PAt v n -> I k j = PAt v m -> kastep (KDiff k i j) s I s I [XNum (Z.of_nat n - Z.of_nat m)]
| k_text : forall u i v a b r s I I', I Ptr i = PAt v (length a) -> strs s v = a ++ b -> until_null b r -> kept (eq u) I I' ->
    kastep (KText u i) s I (set_str s u r) I' []
| k_assign : forall u i v a b r s I I', I Ptr i = PAt v (length a) -> strs s v = a ++ b -> until_null b r -> kept (eq u) I I' ->
    kastep (KAssign u i) s I (set_str s u r) I' []
| k_range : forall k u i j v a b m s I I', I k i = PAt v a -> I k j = PAt v b -> stretch k (strs s v) a b m -> kept (eq u) I I' ->
    kastep (KRange k u i j) s I (set_str s u m) I' []
| k_rev_range : forall k u i j v a b m s I I', I k j = PAt v a -> I k i = PAt v b -> stretch k (strs s v) a b m -> kept (eq u) I I' ->
    kastep (KRevRange k u i j) s I (set_str s u (rev m)) I' [].

(** A run whose strings are short before each statement. *)
Inductive karun : list kstmt -> xstore -> kcurs -> xstore -> kcurs -> list xevent -> Prop :=
| k_nil : forall s I, karun [] s I s I []
| k_cons : forall c rest s I s1 I1 s2 I2 ev1 ev2, short s -> kastep c s I s1 I1 ev1 -> karun rest s1 I1 s2 I2 ev2 ->
    karun (c :: rest) s I s2 I2 (ev1 ++ ev2).

(** The state stands for the texts and the positions. *)
Definition kstands (t : kstate) (s : xstore) (I : kcurs) : Prop :=
  kx t = s /\ forall k i, match I k i with
  | PNone => kp t k i = None
  | PAt v n => kp t k i = Some (v, kg t v, n) /\ (n <= last k (strs s v))%nat
  | PDead => exists v g n, kp t k i = Some (v, g, n) /\ (g < kg t v)%nat
  end.

(** A pointer that can be used. *)
Definition usable (I : kcurs) (k : pkind) (i : nat) : Prop := exists v n, I k i = PAt v n.
(** The statements whose behaviour the code leaves undefined, besides writing to a const member. *)
Definition krisk (c : kstmt) (s : xstore) (I : kcurs) : Prop :=
  match c with
  | KDo c => undefined c s
  | KCopy k _ j => ~ usable I k j
  | KAdd k i z => forall v n, I k i = PAt v n -> Z.of_nat n + z < 0 \/ Z.of_nat (last k (strs s v)) < Z.of_nat n + z
  | KRead k i => forall v n, I k i = PAt v n -> n = last k (strs s v)
  | KBack k i => forall v n, I k i = PAt v n -> n = 0%nat
  | KDiff k i j => forall v n m, I k i = PAt v n -> I k j <> PAt v m
  | KText _ i | KAssign _ i => forall v n, I Ptr i = PAt v n -> n = last Ptr (strs s v)
  | KRange k _ i j => forall v n m, I k i = PAt v n -> I k j = PAt v m -> (m < n)%nat
  | KRevRange k _ i j => forall v n m, I k i = PAt v n -> I k j = PAt v m -> (n < m)%nat
  | _ => False
  end.

Definition kint (c : kstmt) : Prop :=
  match c with KDo c => xint c | KAddr _ _ z => INT_MIN <= z <= INT_MAX | _ => True end.
(** Statements that write to an existing Str object. *)
Definition kwrites (c : kstmt) : Prop := match c with KDo c => writes c | KAssign _ _ => True | _ => False end.
(** The statement changes neither [v] nor the pointer [i]. *)
Definition spares (k : pkind) (i : nat) (v : xvar) (c : kstmt) : Prop :=
  match c with
  | KDo c => ~ loses c v
  | KData j _ | KAddr j _ _ => k = Ptr -> j <> i
  | KBegin j _ | KEnd j _ => k = Itr -> j <> i
  | KCopy k' j _ | KAdd k' j _ => k' = k -> j <> i
  | KText u _ | KAssign u _ | KRange _ u _ _ | KRevRange _ u _ _ => u <> v
  | _ => True
  end.
