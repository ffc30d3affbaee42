(** Programs with iterators over Dicts, on finite maps: an iterator names a key or the end. *)
From Coq Require Import ZArith List Bool Ascii.
From Verif Require Import Outcome ListSpec SetSpec DictModel DictSpec DictRefModel DictRefSpec DictIterModel.
Import ListNotations.
Open Scope Z_scope.

(** An iterator was never set, is at a key, past the last entry, or of no more use. *)
Inductive cur (K : Type) := Unset | At (v : nat) (k : K) | Past (v : nat) | Dead.
Arguments Unset {K}. Arguments At {K}. Arguments Past {K}. Arguments Dead {K}.

Section Spec.
Context {K V : Type} (ltk : K -> K -> bool) (ltv : V -> V -> bool) (showk : K -> list ascii) (showv : V -> list ascii).
Notation fstore := (@fstore K V).
Notation ptrs := (nat -> ptr K).
Notation curs := (nat -> cur K).

(** What becomes of the end of [v]. *)
Definition end_lost (c : mstmt K V) (v : nat) : Prop :=
  match c with
  | MInit u _ => u = v
  | MCopy u w => u = v /\ u <> w
  | MMove u w => u = v \/ w = v
  | _ => False
  end.
(** An iterator at an entry goes where a pointer to the entry goes. *)
Definition iafter (c : mstmt K V) (e : fstore) (I I' : curs) : Prop := forall i,
  match I i with
  | At v k => exists p, after ltk c e (fun _ => To v k) (fun _ => p) /\ I' i = match p with To u j => At u j | _ => Dead end
  | Past v => (end_lost c v /\ I' i = Dead) \/ (~ end_lost c v /\ I' i = Past v)
  | x => I' i = x
  end.

Definition put (I : curs) (i : nat) (x : cur K) (I' : curs) : Prop := I' i = x /\ forall j, j <> i -> I' j = I j.
Definition usable (x : cur K) : Prop := match x with At _ _ | Past _ => True | _ => False end.
Definition whose (x : cur K) : option nat := match x with At v _ | Past v => Some v | _ => None end.
(** The first key of [v] with a property, or the end. *)
Definition first_of (e : fstore) (v : nat) (Q : K -> Prop) (x : cur K) : Prop :=
  (exists k, least ltk (both (has (e v)) Q) k /\ x = At v k) \/ (nothing (both (has (e v)) Q) /\ x = Past v).

Inductive istep_spec : istmt K V -> fstore -> ptrs -> curs -> fstore -> ptrs -> curs -> list (mevent K V) -> Prop :=
| s_do : forall c e P I e' P' I' ev, fstep ltk ltv showk showv c e e' ev -> after ltk c e P P' -> iafter c e I I' ->
    istep_spec (IDo (PDo c)) e P I e' P' I' ev
| s_ref : forall c e P I e' P' ev, (forall d, c <> PDo d) -> rstep ltk ltv showk showv c e P e' P' ev -> istep_spec (IDo c) e P I e' P' I ev
| s_find : forall i v k e P I I', has (e v) k -> put I i (At v k) I' -> istep_spec (IFind i v k) e P I e P I' []
| s_find_absent : forall i v k e P I I', e v k = None -> put I i (Past v) I' -> istep_spec (IFind i v k) e P I e P I' []
| s_begin : forall i v e P I I' x, first_of e v (fun _ => True) x -> put I i x I' -> istep_spec (IBegin i v) e P I e P I' []
| s_end : forall i v e P I I', put I i (Past v) I' -> istep_spec (IEnd i v) e P I e P I' []
| s_copy : forall i j e P I I', usable (I j) -> put I i (I j) I' -> istep_spec (ICopy i j) e P I e P I' []
| s_next : forall i v k e P I I' x, I i = At v k -> first_of e v (fun j => ltk k j = true) x -> put I i x I' -> istep_spec (INext i) e P I e P I' []
| s_prev : forall i v k j e P I I', I i = At v k -> greatest ltk (both (has (e v)) (fun j => ltk j k = true)) j -> put I i (At v j) I' ->
    istep_spec (IPrev i) e P I e P I' []
| s_prev_end : forall i v j e P I I', I i = Past v -> greatest ltk (has (e v)) j -> put I i (At v j) I' -> istep_spec (IPrev i) e P I e P I' []
| s_pair : forall i v k x e P I, I i = At v k -> e v k = Some x -> istep_spec (IPair i) e P I e P I [MPair (k, x)]
| s_back : forall i v k j x e P I, I i = At v k -> greatest ltk (both (has (e v)) (fun j => ltk j k = true)) j -> e v j = Some x ->
    istep_spec (IBack i) e P I e P I [MPair (j, x)]
| s_back_end : forall i v j x e P I, I i = Past v -> greatest ltk (has (e v)) j -> e v j = Some x -> istep_spec (IBack i) e P I e P I [MPair (j, x)]
| s_same : forall i j v b e P I, whose (I i) = Some v -> whose (I j) = Some v -> tells b (I i = I j) -> istep_spec (ISame i j) e P I e P I [MBool b]
| s_ptr : forall r i v k e P P' I, I i = At v k -> points P r (To v k) P' -> istep_spec (IPtr r i) e P I e P' I []
| s_remove : forall v i u k e P I e' P' I' ev, I i = At u k -> istep_spec (IDo (PDo (MRemove v k))) e P I e' P' I' ev ->
    istep_spec (IRemove v i) e P I e' P' I' ev.

Inductive irun_spec : list (istmt K V) -> fstore -> ptrs -> curs -> fstore -> ptrs -> curs -> list (mevent K V) -> Prop :=
| s_nil : forall e P I, irun_spec [] e P I e P I []
| s_cons : forall c rest e P I e1 P1 I1 e2 P2 I2 ev1 ev2,
    istep_spec c e P I e1 P1 I1 ev1 -> irun_spec rest e1 P1 I1 e2 P2 I2 ev2 -> irun_spec (c :: rest) e P I e2 P2 I2 (ev1 ++ ev2).

(** The state stands for the maps, the pointers and the iterators. *)
Record istands (s : istate K V) (e : fstore) (P : ptrs) (I : curs) : Prop := {
  it_refs : hstands ltk (ih s) e P;
  it_own : forall v k a, In (k, a) (hd (ih s) v) -> io s a = v;
  it_cur : forall i, match I i with
    | Unset => ii s i = None
    | At v k => exists a, ii s i = Some (AtNode a) /\ In (k, a) (hd (ih s) v)
    | Past v => ii s i = Some (AtEnd v (ig s v))
    | Dead => match ii s i with
              | Some (AtNode a) => hl (ih s) a = false /\ (a < hn (ih s))%nat
              | Some (AtEnd v n) => (n < ig s v)%nat
              | None => False
              end
    end
}.

Definition iint_stmt (c : istmt K V) : Prop := match c with IDo c => pint_stmt c | _ => True end.
End Spec.
