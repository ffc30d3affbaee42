(** Programs with iterators over Sets, on mathematical sets: an iterator names an element or the end. *)
From Coq Require Import ZArith List Bool Ascii.
From Verif Require Import Outcome ListSpec SetModel SetSpec DictIterSpec SetIterModel.
Import ListNotations.
Open Scope Z_scope.

Section Spec.
Context {T : Type} (lt eqb : T -> T -> bool) (show : T -> list ascii).
Notation curs := (nat -> cur T).

(** [v] is given all new elements. *)
Definition assigned (c : tstmt T) (e : zstore T) (v : nat) : Prop :=
  match c with
  | TInit u _ => u = v
  | TCopy u w => u = v /\ u <> w
  | TAnd u _ _ | TSub u _ _ | TAndA u _ | TSubA u _ => u = v
  | TOr u a b | TXor u a b => u = v /\ fit (e a) (e b)
  | TOrA u b | TXorA u b => u = v /\ fit (e u) (e b)
  | _ => False
  end.
(** [w] hands its elements to [v]. *)
Definition handed (c : tstmt T) (v w : nat) : Prop := c = TMove v w.

(** An iterator at an element follows it as long as it is there: elements of a set that is assigned or moved to
    are lost, elements of a set moved from are in the other set. The end of a set is lost in both. *)
Definition nafter (c : tstmt T) (e e' : zstore T) (I I' : curs) : Prop := forall i,
  match I i with
  | At v x => ((assigned c e v \/ exists w, handed c v w) /\ I' i = Dead) \/
              (exists u, handed c u v /\ I' i = At u x) \/
              (~ assigned c e v /\ (forall w, ~ handed c v w /\ ~ handed c w v) /\
               ((e' v x /\ I' i = At v x) \/ (~ e' v x /\ I' i = Dead)))
  | Past v => ((assigned c e v \/ exists w, handed c v w \/ handed c w v) /\ I' i = Dead) \/
              (~ assigned c e v /\ (forall w, ~ handed c v w /\ ~ handed c w v) /\ I' i = Past v)
  | x => I' i = x
  end.

(** The first element of [v] with a property, or the end. *)
Definition leading (e : zstore T) (v : nat) (Q : T -> Prop) (x : cur T) : Prop :=
  (exists y, least lt (both (e v) Q) y /\ x = At v y) \/ (nothing (both (e v) Q) /\ x = Past v).
(** Elements from an iterator on, and elements before it. *)
Definition from (a : cur T) (y : T) : Prop := match a with At _ x => y = x \/ lt x y = true | _ => False end.
Definition until (b : cur T) (y : T) : Prop := match b with At _ x => lt y x = true | _ => True end.
Definition ordered (a b : cur T) : Prop :=
  match a, b with
  | At _ x, At _ y => x = y \/ lt x y = true
  | _, Past _ => True
  | _, _ => False
  end.
(** [l] is the range [a, b) of [u]. *)
Definition between (e : zstore T) (u : nat) (a b : cur T) (l : list T) : Prop :=
  whose a = Some u /\ whose b = Some u /\ ordered a b /\ enumerates lt l (fun y => e u y /\ from a y /\ until b y).

Inductive nspec : nstmt T -> zstore T -> curs -> zstore T -> curs -> list (tevent T) -> Prop :=
| ns_do : forall c e I e' I' ev, zstep lt show c e e' ev -> nafter c e e' I I' -> nspec (NDo c) e I e' I' ev
| ns_find : forall i v x (e : zstore T) I I', e v x -> put I i (At v x) I' -> nspec (NFind i v x) e I e I' []
| ns_find_absent : forall i v x (e : zstore T) I I', ~ e v x -> put I i (Past v) I' -> nspec (NFind i v x) e I e I' []
| ns_begin : forall i v e I I' x, leading e v (fun _ => True) x -> put I i x I' -> nspec (NBegin i v) e I e I' []
| ns_end : forall i v e I I', put I i (Past v) I' -> nspec (NEnd i v) e I e I' []
| ns_copy : forall i j e I I', usable (I j) -> put I i (I j) I' -> nspec (NCopy i j) e I e I' []
| ns_next : forall i v x e I I' y, I i = At v x -> leading e v (fun z => lt x z = true) y -> put I i y I' -> nspec (NNext i) e I e I' []
| ns_prev : forall i v e I I' y, whose (I i) = Some v -> greatest lt (both (e v) (until (I i))) y -> put I i (At v y) I' ->
    nspec (NPrev i) e I e I' []
| ns_read : forall i v x e I, I i = At v x -> nspec (NRead i) e I e I [TElem x]
| ns_back : forall i v e I y, whose (I i) = Some v -> greatest lt (both (e v) (until (I i))) y -> nspec (NBack i) e I e I [TElem y]
| ns_same : forall i j v b e I, whose (I i) = Some v -> whose (I j) = Some v -> tells b (I i = I j) -> nspec (NSame i j) e I e I [TBool b]
| ns_add : forall v i u x e I e' I' ev, I i = At u x -> nspec (NDo (TAdd v x)) e I e' I' ev -> nspec (NAdd v i) e I e' I' ev
| ns_add_f : forall v i f u x e I e' I' ev, I i = At u x -> nspec (NDo (TAdd v (f x))) e I e' I' ev -> nspec (NAddF v i f) e I e' I' ev
| ns_remove : forall v i u x e I e' I' ev, I i = At u x -> nspec (NDo (TRemove v x)) e I e' I' ev -> nspec (NRemove v i) e I e' I' ev
| ns_remove_if : forall v i f u x e I e' I' ev, I i = At u x -> f x = true -> nspec (NDo (TRemove v x)) e I e' I' ev -> nspec (NRemoveIf v i f) e I e' I' ev
| ns_remove_not : forall v i f u x e I, I i = At u x -> f x = false -> nspec (NRemoveIf v i f) e I e I []
| ns_range : forall v i j u l e I e' I' ev, between e u (I i) (I j) l -> nspec (NDo (TInit v l)) e I e' I' ev -> nspec (NRange v i j) e I e' I' ev
| ns_rev_range : forall v i j u l e I e' I' ev, between e u (I j) (I i) l -> nspec (NDo (TInit v l)) e I e' I' ev ->
    nspec (NRevRange v i j) e I e' I' ev
| ns_extend : forall v i j u l e I e' I' ev, between e u (I i) (I j) l -> u <> v -> nspec (NDo (TExtend v l)) e I e' I' ev ->
    nspec (NExtend v i j) e I e' I' ev
| ns_extend_no : forall v i j u l n e I, between e u (I i) (I j) l -> card (e v) n -> INT_MAX < n + Z.of_nat (length l) ->
    nspec (NExtend v i j) e I e I [].

Inductive nrun : list (nstmt T) -> zstore T -> curs -> zstore T -> curs -> list (tevent T) -> Prop :=
| ns_nil : forall e I, nrun [] e I e I []
| ns_cons : forall c rest e I e1 I1 e2 I2 ev1 ev2,
    nspec c e I e1 I1 ev1 -> nrun rest e1 I1 e2 I2 ev2 -> nrun (c :: rest) e I e2 I2 (ev1 ++ ev2).

(** What must not be done with an iterator that is lost or was never set, or that is in the wrong place. *)
Definition at_element (x : cur T) : Prop := exists v y, x = At v y.
Definition has_before (e : zstore T) (x : cur T) : Prop := exists v y, whose x = Some v /\ e v y /\ until x y.
Definition is_range (a b : cur T) : Prop := exists u, whose a = Some u /\ whose b = Some u /\ ordered a b.
Definition nrisk (c : nstmt T) (e : zstore T) (I : curs) : Prop :=
  match c with
  | NDo (TMove v w) => v = w
  | NDo (TExtendSet v w) => v = w /\ fit (e v) (e w)
  | NDo _ | NFind _ _ _ | NBegin _ _ | NEnd _ _ => False
  | NCopy _ j => ~ usable (I j)
  | NNext i | NRead i | NAdd _ i | NAddF _ i _ | NRemove _ i | NRemoveIf _ i _ => ~ at_element (I i)
  | NPrev i | NBack i => ~ has_before e (I i)
  | NSame i j => ~ exists v, whose (I i) = Some v /\ whose (I j) = Some v
  | NRange _ i j => ~ is_range (I i) (I j)
  | NRevRange _ i j => ~ is_range (I j) (I i)
  | NExtend v i j => ~ is_range (I i) (I j) \/
      exists l n, between e v (I i) (I j) l /\ card (e v) n /\ n + Z.of_nat (length l) <= INT_MAX
  end.

(** The state stands for the sets and the iterators. *)
Record nstands (s : nstate T) (e : zstore T) (I : curs) : Prop := {
  nt_sets : stands lt (nview s) e;
  nt_own : forall v x a, In (x, a) (nd s v) -> no s a = v /\ (a < nc s)%nat;
  nt_one : forall v, NoDup (map snd (nd s v));
  nt_cur : forall i, match I i with
    | Unset => ni s i = SNone
    | At v x => exists a, ni s i = SNode a /\ In (x, a) (nd s v)
    | Past v => ni s i = SEnd v (ng s v)
    | Dead => match ni s i with
              | SNode a => (a < nc s)%nat /\ forall v x, ~ In (x, a) (nd s v)
              | SEnd v n => (n < ng s v)%nat
              | SNone => False
              end
    end
}.

(** [f] applied [n] times. *)
Fixpoint times (f : T -> T) (n : nat) (x : T) : T := match n with 0%nat => x | Datatypes.S n => f (times f n x) end.

Definition nint_stmt (c : nstmt T) : Prop := match c with NDo c => tint_stmt c | _ => True end.
End Spec.
