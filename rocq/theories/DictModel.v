(** Model of sources/dict.hpp. A dict is the sequence of key-value pairs in iteration order of
    its [std::map]; [ltk] is the key type's [operator<]. [size], [list_eqb] and
    [print_range] are those of ListModel, [set_add] is that of SetModel. *)
From Coq Require Import ZArith List Bool Ascii.
From Verif Require Import Outcome ListModel SetModel.
Import ListNotations.
Open Scope Z_scope.

Section Dict_.
Context {K V : Type} (ltk : K -> K -> bool).
Notation dict := (list (K * V)).

(** ** std::map *)

(** [std::map::lower_bound] *)
Fixpoint map_lower (k : K) (l : dict) : dict * dict :=
  match l with
  | [] => ([], [])
  | p :: l' => if ltk (fst p) k then let (a, b) := map_lower k l' in (p :: a, b) else ([], l)
  end.
(** [std::map::find] *)
Definition map_find (k : K) (l : dict) : option V :=
  match snd (map_lower k l) with [] => None | p :: _ => if ltk k (fst p) then None else Some (snd p) end.
(** [std::map::insert({k, v})]: whether inserted, and the new contents. *)
Definition map_insert (k : K) (v : V) (l : dict) : bool * dict :=
  let (a, b) := map_lower k l in
  match b with
  | [] => (true, a ++ [(k, v)])
  | p :: _ => if ltk k (fst p) then (true, a ++ (k, v) :: b) else (false, l)
  end.
(** [std::map::erase(k)]: the number of entries erased, and the new contents. *)
Definition map_erase (k : K) (l : dict) : Z * dict :=
  let (a, b) := map_lower k l in
  match b with
  | [] => (0, l)
  | p :: b' => if ltk k (fst p) then (0, l) else (1, a ++ b')
  end.
(** Writing the value of the entry [find(k)], when there is one. *)
Definition map_assign (k : K) (v : V) (l : dict) : option dict :=
  let (a, b) := map_lower k l in
  match b with
  | [] => None
  | p :: b' => if ltk k (fst p) then None else Some (a ++ (fst p, v) :: b')
  end.
(** [std::map::insert(first, last)], also the constructors from a range. *)
Definition map_insert_range (xs l : dict) : dict := fold_left (fun d p => snd (map_insert (fst p) (snd p) d)) xs l.

(** ** class Dict *)

(** dict.hpp:37-47 *)
Definition dict_of (xs : dict) : dict := map_insert_range xs [].
(** dict.hpp:95-110 *)
Definition dict_at (d : dict) (k : K) : outcome V :=
  match map_find k d with Some v => Ok v | None => Throw KeyNotFound end.
(** Assignment through [d[k]] *)
Definition dict_set (k : K) (v : V) : M dict unit := update (fun d =>
  match map_assign k v d with Some d' => Ok d' | None => Throw KeyNotFound end).
(** dict.hpp:141-144 *)
Definition dict_contains (d : dict) (k : K) : bool := match map_find k d with Some _ => true | None => false end.
(** dict.hpp:113-116 *)
Definition dict_get (d : dict) (k : K) (defaults : V) : outcome V :=
  if dict_contains d k then dict_at d k else Ok defaults.
(** dict.hpp:129-132 *)
Definition dict_is_empty (d : dict) : bool := match d with [] => true | _ => false end.
(** dict.hpp:147-150: no check for an empty dictionary *)
Definition dict_min (d : dict) : outcome K := match d with p :: _ => Ok (fst p) | [] => UB BadDeref end.
(** dict.hpp:153-156 *)
Definition dict_max (d : dict) : outcome K := match rev d with p :: _ => Ok (fst p) | [] => UB BadDeref end.
(** [std::for_each(..., [&](pair) { set.add(f(pair)); })] *)
Fixpoint add_all {X : Type} (lt : X -> X -> bool) (f : K * V -> X) (d : dict) (s : list X) : outcome (list X) :=
  match d with
  | [] => Ok s
  | p :: d' => match set_add lt (f p) s with
               | (Ok _, s') => add_all lt f d' s'
               | (Throw e, _) => Throw e
               | (UB u, _) => UB u
               | (OutOfFuel, _) => OutOfFuel
               end
  end.
(** dict.hpp:159-166 *)
Definition dict_keys (d : dict) : outcome (list K) := add_all ltk fst d [].
(** dict.hpp:169-176; [ltv] is the value type's [operator<] *)
Definition dict_values (ltv : V -> V -> bool) (d : dict) : outcome (list V) := add_all ltv snd d [].
(** [operator<] of std::pair *)
Definition pair_lt (ltv : V -> V -> bool) (p q : K * V) : bool :=
  ltk (fst p) (fst q) || (negb (ltk (fst q) (fst p)) && ltv (snd p) (snd q)).
(** dict.hpp:179-186 *)
Definition dict_items (ltv : V -> V -> bool) (d : dict) : outcome dict := add_all (pair_lt ltv) (fun p => p) d [].
(** dict.hpp:193-198 *)
Definition dict_add (k : K) (v : V) : M dict bool := fun d =>
  match check_full (size d) INT_MAX with
  | Ok _ => let (b, d') := map_insert k v d in (Ok b, d')
  | Throw e => (Throw e, d)
  | UB u => (UB u, d)
  | OutOfFuel => (OutOfFuel, d)
  end.
(** dict.hpp:201-204 *)
Definition dict_remove (k : K) : M dict bool := fun d => let (n, d') := map_erase k d in (Ok (n =? 1), d').
(** dict.hpp:207-213 *)
Definition dict_pop : M dict (K * V) := fun d =>
  match check_empty (size d) with
  | Ok _ => match d with p :: d' => (Ok p, d') | [] => (UB BadDeref, d) end
  | Throw e => (Throw e, d)
  | UB u => (UB u, d)
  | OutOfFuel => (OutOfFuel, d)
  end.
(** dict.hpp:216-220. The range [xs] is not part of the dictionary. *)
Definition dict_extend (xs : dict) : M dict unit := update (fun d => Ok (map_insert_range xs d)).
(** dict.hpp:223-226 *)
Definition dict_clear : M dict unit := update (fun _ => Ok []).
(** dict.hpp:60: defaulted [==] of std::map, which compares pairs *)
Definition dict_eqb (eqk : K -> K -> bool) (eqv : V -> V -> bool) (d e : dict) : bool :=
  list_eqb (fun p q => eqk (fst p) (fst q) && eqv (snd p) (snd q)) d e.
(** utility.hpp:69-73 *)
Definition show_pair (showk : K -> list ascii) (showv : V -> list ascii) (p : K * V) : list ascii :=
  showk (fst p) ++ [":"%char; " "%char] ++ showv (snd p).
(** dict.hpp:233-236 *)
Definition dict_print (showk : K -> list ascii) (showv : V -> list ascii) (d : dict) : list ascii :=
  print_range (show_pair showk showv) d "{"%char "}"%char.
End Dict_.

(** ** Client programs, each statement in its own [try]/[catch] *)
Inductive mstmt (K V : Type) :=
| MInit (v : nat) (xs : list (K * V))     (* v = Dict{{k, x}, ...}; *)
| MCopy (v w : nat)                       (* v = w; *)
| MMove (v w : nat)                       (* v = std::move(w); *)
| MGet (v : nat) (k : K)                  (* emit(v[k]); *)
| MSet (v : nat) (k : K) (x : V)          (* v[k] = x; *)
| MGetOr (v : nat) (k : K) (x : V)        (* emit(v.get(k, x)); *)
| MContains (v : nat) (k : K)             (* emit(v.contains(k)); *)
| MAdd (v : nat) (k : K) (x : V)          (* emit(v.add(k, x)); *)
| MRemove (v : nat) (k : K)               (* emit(v.remove(k)); *)
| MPop (v : nat)                          (* emit(v.pop()); *)
| MExtend (v : nat) (xs : list (K * V))   (* if (xs.size() <= INT_MAX - v.size()) v.extend(xs.begin(), xs.end()); *)
| MExtendDict (v w : nat)                 (* if (w.size() <= INT_MAX - v.size()) v.extend(w.begin(), w.end()); *)
| MClear (v : nat)                        (* v.clear(); *)
| MMin (v : nat)                          (* emit(v.min()); *)
| MMax (v : nat)                          (* emit(v.max()); *)
| MKeys (v : nat)                         (* for (k : v.keys()) emit(k); *)
| MValues (v : nat)                       (* for (x : v.values()) emit(x); *)
| MItems (v : nat)                        (* for (p : v.items()) emit(p); *)
| MSize (v : nat)                         (* emit(v.size()); *)
| MIsEmpty (v : nat)                      (* emit(v.is_empty()); *)
| MEqual (v w : nat)                      (* emit(v == w); *)
| MIterate (v : nat)                      (* for (p : v) emit(p); *)
| MPrint (v : nat).                       (* std::cout << v; *)
Arguments MInit {K V}. Arguments MCopy {K V}. Arguments MMove {K V}. Arguments MGet {K V}. Arguments MSet {K V}. Arguments MGetOr {K V}.
Arguments MContains {K V}. Arguments MAdd {K V}. Arguments MRemove {K V}. Arguments MPop {K V}. Arguments MExtend {K V}.
Arguments MExtendDict {K V}. Arguments MClear {K V}. Arguments MMin {K V}. Arguments MMax {K V}. Arguments MKeys {K V}.
Arguments MValues {K V}. Arguments MItems {K V}. Arguments MSize {K V}. Arguments MIsEmpty {K V}. Arguments MEqual {K V}.
Arguments MIterate {K V}. Arguments MPrint {K V}.

(** What a client observes. *)
Inductive mevent (K V : Type) :=
| MThrow (e : exn) | MKey (k : K) | MVal (x : V) | MPair (p : K * V) | MBool (b : bool) | MNum (z : Z) | MText (s : list ascii).
Arguments MThrow {K V}. Arguments MKey {K V}. Arguments MVal {K V}. Arguments MPair {K V}. Arguments MBool {K V}. Arguments MNum {K V}.
Arguments MText {K V}.

Definition mstore K V := nat -> list (K * V).
Definition mset {K V} (s : mstore K V) (v : nat) (x : list (K * V)) : mstore K V := fun w => if Nat.eqb w v then x else s w.

Section Run.
Context {K V : Type} (ltk eqk : K -> K -> bool) (ltv eqv : V -> V -> bool) (showk : K -> list ascii) (showv : V -> list ascii).

Definition mcall {A} (s : mstore K V) (v : nat) (m : M (list (K * V)) A) (out : A -> list (mevent K V)) : outcome (mstore K V * list (mevent K V)) :=
  match m (s v) with
  | (Ok a, v') => Ok (mset s v v', out a)
  | (Throw e, v') => Ok (mset s v v', [MThrow e])
  | (UB u, _) => UB u
  | (OutOfFuel, _) => OutOfFuel
  end.
Definition msilent (_ : unit) : list (mevent K V) := [].
Definition memit {A} (s : mstore K V) (o : outcome A) (out : A -> list (mevent K V)) : outcome (mstore K V * list (mevent K V)) :=
  match o with
  | Ok r => Ok (s, out r)
  | Throw e => Ok (s, [MThrow e])
  | UB u => UB u
  | OutOfFuel => OutOfFuel
  end.
Definition mguard (s : mstore K V) (n : Z) (a : list (K * V)) (k : outcome (mstore K V * list (mevent K V))) : outcome (mstore K V * list (mevent K V)) :=
  if n <=? INT_MAX - size a then k else Ok (s, []).

Definition mstep (c : mstmt K V) (s : mstore K V) : outcome (mstore K V * list (mevent K V)) :=
  match c with
  | MInit v xs => Ok (mset s v (dict_of ltk xs), [])
  | MCopy v w => Ok (mset s v (s w), [])
  | MMove v w => if Nat.eqb v w then UB SelfRange else Ok (mset (mset s v (s w)) w [], [])
  | MGet v k => memit s (dict_at ltk (s v) k) (fun x => [MVal x])
  | MSet v k x => mcall s v (dict_set ltk k x) msilent
  | MGetOr v k x => memit s (dict_get ltk (s v) k x) (fun y => [MVal y])
  | MContains v k => memit s (Ok (dict_contains ltk (s v) k)) (fun b => [MBool b])
  | MAdd v k x => mcall s v (dict_add ltk k x) (fun b => [MBool b])
  | MRemove v k => mcall s v (dict_remove ltk k) (fun b => [MBool b])
  | MPop v => mcall s v dict_pop (fun p => [MPair p])
  | MExtend v xs => mguard s (len xs) (s v) (mcall s v (dict_extend ltk xs) msilent)
  | MExtendDict v w =>
      mguard s (size (s w)) (s v) (if Nat.eqb v w then UB SelfRange else mcall s v (dict_extend ltk (s w)) msilent)
  | MClear v => mcall s v dict_clear msilent
  | MMin v => memit s (dict_min (s v)) (fun k => [MKey k])
  | MMax v => memit s (dict_max (s v)) (fun k => [MKey k])
  | MKeys v => memit s (dict_keys ltk (s v)) (map MKey)
  | MValues v => memit s (dict_values ltv (s v)) (map MVal)
  | MItems v => memit s (dict_items ltk ltv (s v)) (map MPair)
  | MSize v => memit s (Ok (size (s v))) (fun z => [MNum z])
  | MIsEmpty v => memit s (Ok (dict_is_empty (s v))) (fun b => [MBool b])
  | MEqual v w => memit s (Ok (dict_eqb eqk eqv (s v) (s w))) (fun b => [MBool b])
  | MIterate v => Ok (s, map MPair (s v))
  | MPrint v => memit s (Ok (dict_print showk showv (s v))) (fun t => [MText t])
  end.

Fixpoint mrun (prog : list (mstmt K V)) (s : mstore K V) : outcome (mstore K V * list (mevent K V)) :=
  match prog with
  | [] => Ok (s, [])
  | c :: rest => se <- mstep c s ;; se' <- mrun rest (fst se) ;; Ok (fst se', snd se ++ snd se')
  end.
End Run.
