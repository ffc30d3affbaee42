(** sources/dict.hpp when allocations and copies of keys and values may throw (see FailModel): which events each member causes, and
    what a member that fails leaves behind. The values are those of DictModel; comparing does not throw here. *)
From Coq Require Import ZArith List Bool Ascii.
From Verif Require Import Outcome ListModel SetModel DictModel FailModel FailRunModel SetFailModel.
Import ListNotations.
Open Scope Z_scope.

Section DictFail.
Context {K V : Type}.
Variables (ok : nat -> bool) (ltk eqk : K -> K -> bool) (ltv eqv : V -> V -> bool) (showk : K -> list ascii) (showv : V -> list ascii).

Notation dict := (list (K * V)).
Notation mm := (xm dict).

(** [std::map::insert] of one entry: if there is no such key, [n] events (the allocation of the node and the copies made in it), then
    the node is linked. *)
Definition fm_insert (n : nat) (k : K) (x : V) : mm bool :=
  d <~ xget ;; let (b, d') := map_insert ltk k x d in
  if b then xevents ok n ;~ xput d' ;~ xret true else xret false.
(** [std::map::insert(first, last)] and the constructors from a range of pairs of the map's own type (dict.hpp:37-47): an allocation, a
    copy of the key and one of the value for each new entry *)
Fixpoint fm_insert_range (xs : dict) : mm unit :=
  match xs with
  | [] => xret tt
  | p :: xs' => fm_insert 3 (fst p) (snd p) ;~ fm_insert_range xs'
  end.
Definition fm_of {St} (xs : dict) : xm St dict := r <~ xlocal [] (fm_insert_range xs) ;; xret (snd r).
(** The implicit copy assignment from another Dict, as for Set: two copies in each node *)
Definition fm_assign (w : dict) : mm unit := fs_assign ok 2 w.
(** [d[k] = x]; dict.hpp:95-110, then one copy assignment *)
Definition fm_set (k : K) (x : V) : mm unit :=
  d <~ xget ;; xlift (dict_at ltk d k) ;~ xevent ok ;~ xcalm (dict_set ltk k x).
(** dict.hpp:193-198: the pair is made from copies of the key and the value; if the key is new a node is allocated, the key of the pair,
    being const, is copied into it and the value moved. *)
Definition fm_add (k : K) (x : V) : mm bool :=
  d <~ xget ;; xlift (check_full (size d) INT_MAX) ;~ xevents ok 2 ;~ fm_insert 2 k x.
(** dict.hpp:207-213: the node is taken out of the tree, then its key and its value are copied into the result; the node handle
    releases it. *)
Definition fm_pop : mm (K * V) :=
  d <~ xget ;; xlift (check_empty (size d)) ;~
  match d with
  | p :: d' => xput d' ;~ xevents ok 2 ;~ xret p
  | [] => xlift (UB BadDeref)
  end.
(** dict.hpp:216-220. The range [xs] is not part of the dictionary. *)
Definition fm_extend (xs : dict) : mm unit := fm_insert_range xs.
(** dict.hpp:147-156: returned by value *)
Definition fm_min {St} (d : dict) : xm St K := k <~ xlift (dict_min d) ;; xevent ok ;~ xret k.
Definition fm_max {St} (d : dict) : xm St K := k <~ xlift (dict_max d) ;; xevent ok ;~ xret k.
(** dict.hpp:159-186: [Set::add] in a loop over the entries; [cost] copies for one element of the Set *)
Fixpoint fm_add_all {X : Type} (cost : nat) (lt : X -> X -> bool) (f : K * V -> X) (d : dict) : xm (list X) unit :=
  match d with
  | [] => xret tt
  | p :: d' => fs_add ok cost lt (f p) ;~ fm_add_all cost lt f d'
  end.
Definition fm_view {St X} (cost : nat) (lt : X -> X -> bool) (f : K * V -> X) (d : dict) : xm St (list X) :=
  r <~ xlocal [] (fm_add_all cost lt f d) ;; xret (snd r).
Definition fm_keys {St} (d : dict) : xm St (list K) := fm_view 1 ltk fst d.
Definition fm_values {St} (d : dict) : xm St (list V) := fm_view 1 ltv snd d.
Definition fm_items {St} (d : dict) : xm St dict := fm_view 2 (pair_lt ltk ltv) (fun p => p) d.

(** ** Programs: the statements of DictModel *)
Notation call := (on_object MThrow).
Notation look := (looking MThrow).
(** [if (n <= INT_MAX - d.size()) ...] *)
Definition fm_guard (s : nat -> dict) (j : nat) (n : Z) (d : dict) (r : progress dict (mevent K V)) : progress dict (mevent K V) :=
  if n <=? INT_MAX - size d then r else Ok (s, j, []).

Definition fmstep (c : mstmt K V) (s : nat -> dict) (j : nat) : progress dict (mevent K V) :=
  match c with
  | MInit v xs => new_object MThrow s v j (fm_of xs)
  | MCopy v w => if Nat.eqb v w then Ok (s, j, []) else call s v j (fm_assign (s w)) msilent
  | MMove v w => if Nat.eqb v w then UB SelfRange else Ok (place (place s v (s w)) w [], j, [])
  | MGet v k => look s j (xlift (dict_at ltk (s v) k)) (fun x => [MVal x])
  | MSet v k x => call s v j (fm_set k x) msilent
  | MGetOr v k x => look s j (xlift (dict_get ltk (s v) k x)) (fun y => [MVal y])
  | MContains v k => look s j (xlift (Ok (dict_contains ltk (s v) k))) (fun b => [MBool b])
  | MAdd v k x => call s v j (fm_add k x) (fun b => [MBool b])
  | MRemove v k => call s v j (xcalm (dict_remove ltk k)) (fun b => [MBool b])
  | MPop v => call s v j fm_pop (fun p => [MPair p])
  | MExtend v xs => fm_guard s j (len xs) (s v) (call s v j (fm_extend xs) msilent)
  | MExtendDict v w =>
      fm_guard s j (size (s w)) (s v) (if Nat.eqb v w then UB SelfRange else call s v j (fm_extend (s w)) msilent)
  | MClear v => call s v j (xcalm dict_clear) msilent
  | MMin v => look s j (fm_min (s v)) (fun k => [MKey k])
  | MMax v => look s j (fm_max (s v)) (fun k => [MKey k])
  | MKeys v => look s j (fm_keys (s v)) (map MKey)
  | MValues v => look s j (fm_values (s v)) (map MVal)
  | MItems v => look s j (fm_items (s v)) (map MPair)
  | MSize v => look s j (xlift (Ok (size (s v)))) (fun z => [MNum z])
  | MIsEmpty v => look s j (xlift (Ok (dict_is_empty (s v)))) (fun b => [MBool b])
  | MEqual v w => look s j (xlift (Ok (dict_eqb eqk eqv (s v) (s w)))) (fun b => [MBool b])
  | MIterate v => Ok (s, j, map Saw (map MPair (s v)))
  | MPrint v => look s j (xlift (Ok (dict_print showk showv (s v)))) (fun t => [MText t])
  end.

Definition fmrun : list (mstmt K V) -> (nat -> dict) -> nat -> progress dict (mevent K V) := steps fmstep.
End DictFail.
