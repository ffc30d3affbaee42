(** Programs with references into Dicts, on finite maps: a pointer names a key. *)
From Coq Require Import ZArith List Bool Ascii.
From Verif Require Import Outcome ListSpec SetSpec DictModel DictSpec DictRefModel.
Import ListNotations.
Open Scope Z_scope.

(** A pointer was never set, points to the value of a key, or to an object that is gone. *)
Inductive ptr (K : Type) := Null | To (v : nat) (k : K) | Gone.
Arguments Null {K}. Arguments To {K}. Arguments Gone {K}.

Section Spec.
Context {K V : Type} (ltk : K -> K -> bool) (ltv : V -> V -> bool) (showk : K -> list ascii) (showv : V -> list ascii).
Notation fstore := (@fstore K V).
Notation ptrs := (nat -> ptr K).

(** The entries that [dead] describes are gone, and with them what points to them. *)
Definition lost (dead : nat -> K -> Prop) (P P' : ptrs) : Prop := forall r,
  match P r with
  | To v k => (dead v k /\ P' r = Gone) \/ (~ dead v k /\ P' r = To v k)
  | p => P' r = p
  end.

(** What a Dict statement does to the pointers. *)
Definition after (c : mstmt K V) (e : fstore) : ptrs -> ptrs -> Prop :=
  match c with
  | MInit v _ | MClear v => lost (fun u _ => u = v)
  | MCopy v w => lost (fun u _ => u = v /\ v <> w)
  | MMove v w => fun P P' => forall r,
      match P r with
      | To u k => (u = v /\ P' r = Gone) \/ (u = w /\ u <> v /\ P' r = To v k) \/ (u <> v /\ u <> w /\ P' r = To u k)
      | p => P' r = p
      end
  | MRemove v k => lost (fun u j => u = v /\ j = k)
  | MPop v => lost (fun u j => u = v /\ least ltk (has (e v)) j)
  | _ => lost (fun _ _ => False)
  end.

Definition points (P : ptrs) (r : nat) (p : ptr K) (P' : ptrs) : Prop := P' r = p /\ forall q, q <> r -> P' q = P q.

Inductive rstep : pstmt K V -> fstore -> ptrs -> fstore -> ptrs -> list (mevent K V) -> Prop :=
| r_do : forall c e P e' P' ev, fstep ltk ltv showk showv c e e' ev -> after c e P P' -> rstep (PDo c) e P e' P' ev
| r_addr : forall r v k e P P', has (e v) k -> points P r (To v k) P' -> rstep (PAddr r v k) e P e P' []
| r_addr_absent : forall r v k e P, e v k = None -> rstep (PAddr r v k) e P e P [MThrow KeyNotFound]
| r_get : forall r v k x e P P', has (e v) k -> points P r (To v k) P' -> rstep (PGet r v k x) e P e P' []
| r_get_absent : forall r v k x e P P', e v k = None -> points P r Gone P' -> rstep (PGet r v k x) e P e P' []
| r_get_or : forall r v k q w j e P P', P q = To w j -> has (e v) k -> points P r (To v k) P' -> rstep (PGetOr r v k q) e P e P' []
| r_get_or_absent : forall r v k q w j e P P', P q = To w j -> e v k = None -> points P r (To w j) P' -> rstep (PGetOr r v k q) e P e P' []
| r_same : forall r q e P P', points P r (P q) P' -> rstep (PSame r q) e P e P' []
| r_read : forall r v k x e P, P r = To v k -> e v k = Some x -> rstep (PRead r) e P e P [MVal x]
| r_write : forall r v k x e P m, P r = To v k -> puts (e v) k x m -> rstep (PWrite r x) e P (fset e v m) P [].

Inductive rrun : list (pstmt K V) -> fstore -> ptrs -> fstore -> ptrs -> list (mevent K V) -> Prop :=
| r_nil : forall e P, rrun [] e P e P []
| r_cons : forall c rest e P e1 P1 e2 P2 ev1 ev2,
    rstep c e P e1 P1 ev1 -> rrun rest e1 P1 e2 P2 ev2 -> rrun (c :: rest) e P e2 P2 (ev1 ++ ev2).

(** The nodes stand for the maps and the addresses for the keys. *)
Record hstands (h : hstate K V) (e : fstore) (P : ptrs) : Prop := {
  st_view : mstands ltk (view h) e;
  st_live : forall v k a, In (k, a) (hd h v) -> hl h a = true;
  st_one : forall v w k j a, In (k, a) (hd h v) -> In (j, a) (hd h w) -> v = w /\ k = j;
  st_old : forall a, hl h a = true -> (a < hn h)%nat;
  st_ptr : forall r, match P r with
    | Null => hr h r = None
    | To v k => exists a, hr h r = Some a /\ In (k, a) (hd h v)
    | Gone => exists a, hr h r = Some a /\ hl h a = false /\ (a < hn h)%nat
    end
}.

(** Arguments fit in memory. *)
Definition pint_stmt (c : pstmt K V) : Prop := match c with PDo c => mint_stmt c | _ => True end.
(** The pointer is dereferenced. *)
Definition derefs (c : pstmt K V) (r : nat) : Prop :=
  match c with PGetOr _ _ _ q => q = r | PRead q => q = r | PWrite q _ => q = r | _ => False end.
End Spec.
