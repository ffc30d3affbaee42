(** References to the values of a Dict, sources/dict.hpp. Definitions only.

    A value lives in a node of its [std::map]; a node has an address, which is never
    used again. Inserting a key makes a node and erasing it ends the node; moving a map
    hands over its nodes; nothing else makes or ends one (assignment of a range or of another
    map ends the nodes of the left side, whether or not the library reuses the memory). Clients keep the addresses they
    get from [operator[]] and [get] in pointer variables. *)
From Coq Require Import ZArith List Bool Ascii.
From Verif Require Import Outcome ListModel SetModel DictModel.
Import ListNotations.
Open Scope Z_scope.

Record hstate (K V : Type) := HState {
  hd : nat -> list (K * nat);   (* the entries of each Dict variable, with the addresses of the values *)
  hm : nat -> V;                (* what is stored at an address *)
  hl : nat -> bool;             (* whether an object lives there *)
  hn : nat;                     (* the next address to be used *)
  hr : nat -> option nat        (* the pointer variables *)
}.
Arguments HState {K V}. Arguments hd {K V}. Arguments hm {K V}. Arguments hl {K V}. Arguments hn {K V}. Arguments hr {K V}.

Inductive pstmt (K V : Type) :=
| PDo (c : mstmt K V)                     (* a statement of DictModel.v *)
| PAddr (r v : nat) (k : K)               (* r = &v[k]; *)
| PGet (r v : nat) (k : K) (x : V)        (* r = &v.get(k, V(x)); *)
| PGetOr (r v : nat) (k : K) (q : nat)    (* r = &v.get(k, *q); *)
| PSame (r q : nat)                       (* r = q; *)
| PRead (r : nat)                         (* emit( *r); *)
| PWrite (r : nat) (x : V).               (* *r = x; *)
Arguments PDo {K V}. Arguments PAddr {K V}. Arguments PGet {K V}. Arguments PGetOr {K V}. Arguments PSame {K V}. Arguments PRead {K V}.
Arguments PWrite {K V}.

Section Refs.
Context {K V : Type} (ltk eqk : K -> K -> bool) (ltv eqv : V -> V -> bool) (showk : K -> list ascii) (showv : V -> list ascii).
Notation state := (hstate K V).
Notation result := (outcome (state * list (mevent K V))).

(** The contents of the variables, read through the addresses. *)
Definition look (m : nat -> V) (p : K * nat) : K * V := (fst p, m (snd p)).
Definition view (h : state) : mstore K V := fun v => map (look (hm h)) (hd h v).

Definition nset {A} (f : nat -> A) (i : nat) (x : A) : nat -> A := fun j => if Nat.eqb j i then x else f j.
(** The nodes of a range of entries end. *)
Definition ends (l : list (K * nat)) (live : nat -> bool) : nat -> bool :=
  fun a => live a && negb (existsb (fun p => Nat.eqb (snd p) a) l).

(** [std::map::insert], dict.hpp:38, 45, 51, 197, 219: a node is made when the key is new. *)
Definition h_insert (v : nat) (k : K) (x : V) (h : state) : bool * state :=
  let (b, d) := map_insert ltk k (hn h) (hd h v) in
  if b then (true, HState (nset (hd h) v d) (nset (hm h) (hn h) x) (nset (hl h) (hn h) true) (S (hn h)) (hr h))
  else (false, h).
Definition h_insert_range (v : nat) (xs : list (K * V)) (h : state) : state :=
  fold_left (fun h p => snd (h_insert v (fst p) (snd p) h)) xs h.
(** [erase], [extract], [clear] and assignment, dict.hpp:203, 211, 225 and the implicit [operator=]:
    the map of [v] becomes [d]; the nodes of [gone] end. *)
Definition h_cut (v : nat) (d gone : list (K * nat)) (h : state) : state :=
  HState (nset (hd h) v d) (hm h) (ends gone (hl h)) (hn h) (hr h).
(** Assignment to the object at an address. *)
Definition h_write (a : nat) (x : V) (h : state) : state := HState (hd h) (nset (hm h) a x) (hl h) (hn h) (hr h).
(** Assignment to a pointer variable. *)
Definition h_bind (r : nat) (a : option nat) (h : state) : state := HState (hd h) (hm h) (hl h) (hn h) (nset (hr h) r a).

(** dict.hpp:113-116 with a temporary as [defaults]: it lives until the end of the full expression. *)
Definition h_temporary (h : state) : nat * state :=
  (hn h, HState (hd h) (hm h) (hl h) (S (hn h)) (hr h)).

(** The statements of DictModel.v: dict.hpp:37-53 (MInit, MCopy, MMove), 95-104 (MSet), 193-226 (the others that
    change a map); the rest read the map. *)
Definition h_do (c : mstmt K V) (h : state) : result :=
  match c with
  | MInit v xs => Ok (h_insert_range v xs (h_cut v [] (hd h v) h), [])
  | MCopy v w => if Nat.eqb v w then Ok (h, []) else Ok (h_insert_range v (view h w) (h_cut v [] (hd h v) h), [])
  | MMove v w =>
      if Nat.eqb v w then UB SelfRange
      else let h1 := h_cut v (hd h w) (hd h v) h in Ok (HState (nset (hd h1) w []) (hm h1) (hl h1) (hn h1) (hr h1), [])
  | MSet v k x => match map_find ltk k (hd h v) with Some a => Ok (h_write a x h, []) | None => Ok (h, [MThrow KeyNotFound]) end
  | MAdd v k x =>
      match check_full (size (hd h v)) INT_MAX with
      | Ok _ => let (b, h1) := h_insert v k x h in Ok (h1, [MBool b])
      | Throw e => Ok (h, [MThrow e])
      | UB u => UB u
      | OutOfFuel => OutOfFuel
      end
  | MRemove v k =>
      match map_find ltk k (hd h v) with
      | Some a => Ok (h_cut v (snd (map_erase ltk k (hd h v))) [(k, a)] h, [MBool true])
      | None => Ok (h, [MBool false])
      end
  | MPop v =>
      match check_empty (size (hd h v)) with
      | Ok _ => match hd h v with
                | p :: d => Ok (h_cut v d [p] h, [MPair (look (hm h) p)])
                | [] => UB BadDeref
                end
      | Throw e => Ok (h, [MThrow e])
      | UB u => UB u
      | OutOfFuel => OutOfFuel
      end
  | MExtend v xs => if len xs <=? INT_MAX - size (hd h v) then Ok (h_insert_range v xs h, []) else Ok (h, [])
  | MExtendDict v w =>
      if size (hd h w) <=? INT_MAX - size (hd h v)
      then if Nat.eqb v w then UB SelfRange else Ok (h_insert_range v (view h w) h, [])
      else Ok (h, [])
  | MClear v => Ok (h_cut v [] (hd h v) h, [])
  | _ =>
      match mstep ltk eqk ltv eqv showk showv c (view h) with
      | Ok (_, ev) => Ok (h, ev)
      | Throw e => Throw e
      | UB u => UB u
      | OutOfFuel => OutOfFuel
      end
  end.

(** [*r] *)
Definition h_at (h : state) (r : nat) : outcome nat :=
  match hr h r with
  | Some a => if hl h a then Ok a else UB BadDeref
  | None => UB BadDeref
  end.

(** [v[k]] dict.hpp:95-104, [v.get] dict.hpp:113-116; a pointer may also be copied, read and written. *)
Definition h_step (c : pstmt K V) (h : state) : result :=
  match c with
  | PDo c => h_do c h
  | PAddr r v k => match map_find ltk k (hd h v) with Some a => Ok (h_bind r (Some a) h, []) | None => Ok (h, [MThrow KeyNotFound]) end
  | PGet r v k x =>
      let (t, h1) := h_temporary h in
      Ok (h_bind r (Some (match map_find ltk k (hd h v) with Some a => a | None => t end)) h1, [])
  | PGetOr r v k q =>
      t <- h_at h q ;;
      Ok (h_bind r (Some (match map_find ltk k (hd h v) with Some a => a | None => t end)) h, [])
  | PSame r q => Ok (h_bind r (hr h q) h, [])
  | PRead r => a <- h_at h r ;; Ok (h, [MVal (hm h a)])
  | PWrite r x => a <- h_at h r ;; Ok (h_write a x h, [])
  end.

(** A program: the first undefined statement ends it. *)
Fixpoint h_run (prog : list (pstmt K V)) (h : state) : result :=
  match prog with
  | [] => Ok (h, [])
  | c :: rest => he <- h_step c h ;; he' <- h_run rest (fst he) ;; Ok (fst he', snd he ++ snd he')
  end.
End Refs.
