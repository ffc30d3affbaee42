(** sources/dict.hpp with comparisons that are code of the client, on the trees of TreeModel.v. Definitions only. [lessk] and
    [eqk] are [operator<] and [operator==] of the key type, [lessv] and [eqv] those of the value type; the members that call
    none of them are those of DictModel.v. *)
From Coq Require Import ZArith List Bool Ascii.
From Verif Require Import Outcome ListModel SetModel DictModel ListCallModel TreeModel SetTreeModel.
Import ListNotations.
Open Scope Z_scope.

Section Dict_.
Context {S X K V : Type} (lessk eqk : K -> K -> call S X bool) (lessv eqv : V -> V -> call S X bool)
  (shape : tree (K * V) -> list (K * V) -> tree (K * V)) (shapek : tree K -> list K -> tree K) (shapev : tree V -> list V -> tree V).
Notation TM := (TM S X (K * V)).
Notation entry := (K * V)%type.

(** One call after another. *)
Definition cthen {A B} (c : call S X A) (f : A -> call S X B) : call S X B := fun s =>
  match c s with
  | (inl a, s') => f a s'
  | (inr x, s') => (inr x, s')
  end.
Definition cyes {A} (a : A) : call S X A := fun s => (inl a, s).
(** [<] of std::pair by way of [<=>], for types that have [<] only *)
Definition pair_less (p q : entry) : call S X bool :=
  cthen (lessk (fst p) (fst q)) (fun b => if b then cyes true else
  cthen (lessk (fst q) (fst p)) (fun b => if b then cyes false else
  cthen (lessv (snd p) (snd q)) (fun b => if b then cyes true else
  cthen (lessv (snd q) (snd p)) (fun _ => cyes false)))).
(** [==] of std::pair *)
Definition pair_eq (p q : entry) : call S X bool :=
  cthen (eqk (fst p) (fst q)) (fun b => if b then eqv (snd p) (snd q) else cyes false).

Notation find := (find_tree (@fst K V) lessk).

(** dict.hpp:37-47 *)
Definition dict_of_calls (xs : list entry) : TM (tree entry) := fresh (insert_all (@fst K V) lessk shape xs).
(** dict.hpp:95-110 *)
Definition dict_at_calls (k : K) : TM V :=
  j <~ find k ;;
  match j with
  | None => tquiet (Throw KeyNotFound)
  | Some i => e <~ telem i ;; tret (snd e)
  end.
(** Assignment through [d[k]]; the tree keeps its shape or, here, gets any. *)
Definition dict_set_calls (k : K) (v : V) : TM unit :=
  j <~ find k ;;
  match j with
  | None => tquiet (Throw KeyNotFound)
  | Some i =>
      e <~ telem i ;; t <~ tget ;; tchange shape (firstn i (elems t) ++ (fst e, v) :: skipn (i + 1) (elems t))
  end.
(** dict.hpp:141-144 *)
Definition dict_contains_calls (k : K) : TM bool :=
  j <~ find k ;; tret (match j with Some _ => true | None => false end).
(** dict.hpp:113-116 *)
Definition dict_get_calls (k : K) (defaults : V) : TM V :=
  b <~ dict_contains_calls k ;; if b then dict_at_calls k else tret defaults.
(** [std::for_each(..., [&](pair) { set.add(f(pair)); })] *)
Fixpoint add_all_calls {F : Type} (less : F -> F -> call S X bool) (sh : tree F -> list F -> tree F) (f : entry -> F) (d : list entry) : TreeModel.TM S X F unit :=
  match d with
  | [] => tret tt
  | p :: d' => _ <~ set_add_calls less sh (f p) ;; add_all_calls less sh f d'
  end.
(** dict.hpp:159-186 *)
Definition dict_keys_calls : TM (tree K) := t <~ tget ;; fresh (add_all_calls lessk shapek fst (elems t)).
Definition dict_values_calls : TM (tree V) := t <~ tget ;; fresh (add_all_calls lessv shapev snd (elems t)).
Definition dict_items_calls : TM (tree entry) := t <~ tget ;; fresh (add_all_calls pair_less shape (fun p => p) (elems t)).
(** dict.hpp:193-198 *)
Definition dict_add_calls (k : K) (v : V) : TM bool :=
  t <~ tget ;; _ <~ tquiet (check_full (size (elems t)) INT_MAX) ;; insert_tree (@fst K V) lessk shape (k, v).
(** dict.hpp:201-204 *)
Definition dict_remove_calls (k : K) : TM bool :=
  n <~ erase_tree (@fst K V) lessk shape k ;; tret (Nat.eqb n 1).
(** dict.hpp:216-220 *)
Definition dict_extend_calls (xs : list entry) : TM unit := insert_all (@fst K V) lessk shape xs.
(** dict.hpp:60: [==] of std::map, sizes first *)
Definition dict_eq_calls (d : list entry) : TM bool :=
  t <~ tget ;; if Nat.eqb (length (elems t)) (length d) then same_calls pair_eq (elems t) d else tret false.
End Dict_.

(** ** Client programs *)
Section Run.
Context {S X K V : Type} (lessk eqk : K -> K -> call S X bool) (lessv eqv : V -> V -> call S X bool)
  (showk : K -> list ascii) (showv : V -> list ascii)
  (shape : tree (K * V) -> list (K * V) -> tree (K * V)) (shapek : tree K -> list K -> tree K) (shapev : tree V -> list V -> tree V).
Notation entry := (K * V)%type.
Notation store := (cstore entry).
Notation result := (outcome ((store * S) * list (cevent X (mevent K V)))).

Definition gcall {A} (s : store) (q : S) (v : nat) (m : TM S X entry A) (save : A -> store -> store) (out : A -> list (mevent K V)) : result :=
  match m (s v, q) with
  | (CRet a, (t, q')) => Ok ((save a (cset s v t), q'), map Plain (out a))
  | (CThrow (inl e), (t, q')) => Ok ((cset s v t, q'), [Plain (MThrow e)])
  | (CThrow (inr x), (t, q')) => Ok ((cset s v t, q'), [Caught x])
  | (CUB u, _) => UB u
  end.
Definition gmute {A} (_ : A) : list (mevent K V) := [].
Definition gguard (s : store) (q : S) (n : Z) (a : list entry) (k : result) : result :=
  if n <=? INT_MAX - size a then k else Ok ((s, q), []).

Definition gstep (c : mstmt K V) (sq : store * S) : result :=
  let (s, q) := sq in
  let el v := elems (s v) in
  match c with
  | MInit v xs => gcall s q v (dict_of_calls lessk shape xs) (saved v) gmute
  | MCopy v w => Ok ((cset s v (s w), q), [])
  | MMove v w => if Nat.eqb v w then UB SelfRange else Ok ((cset (cset s v (s w)) w Leaf, q), [])
  | MGet v k => gcall s q v (dict_at_calls lessk k) kept (fun x => [MVal x])
  | MSet v k x => gcall s q v (dict_set_calls lessk shape k x) kept gmute
  | MGetOr v k x => gcall s q v (dict_get_calls lessk k x) kept (fun x => [MVal x])
  | MContains v k => gcall s q v (dict_contains_calls lessk k) kept (fun b => [MBool b])
  | MAdd v k x => gcall s q v (dict_add_calls lessk shape k x) kept (fun b => [MBool b])
  | MRemove v k => gcall s q v (dict_remove_calls lessk shape k) kept (fun b => [MBool b])
  | MPop v => gcall s q v (set_plain shape dict_pop) kept (fun p => [MPair p])
  | MExtend v xs => gguard s q (len xs) (el v) (gcall s q v (dict_extend_calls lessk shape xs) kept gmute)
  | MExtendDict v w =>
      gguard s q (size (el w)) (el v) (if Nat.eqb v w then UB SelfRange else gcall s q v (dict_extend_calls lessk shape (el w)) kept gmute)
  | MClear v => gcall s q v (set_plain shape dict_clear) kept gmute
  | MMin v => gcall s q v (tquiet (dict_min (el v))) kept (fun k => [MKey k])
  | MMax v => gcall s q v (tquiet (dict_max (el v))) kept (fun k => [MKey k])
  | MKeys v => gcall s q v (dict_keys_calls lessk shapek) kept (fun t => map MKey (elems t))
  | MValues v => gcall s q v (dict_values_calls lessv shapev) kept (fun t => map MVal (elems t))
  | MItems v => gcall s q v (dict_items_calls lessk lessv shape) kept (fun t => map MPair (elems t))
  | MSize v => Ok (sq, [Plain (MNum (size (el v)))])
  | MIsEmpty v => Ok (sq, [Plain (MBool (dict_is_empty (el v)))])
  | MEqual v w => gcall s q v (dict_eq_calls eqk eqv (el w)) kept (fun b => [MBool b])
  | MIterate v => Ok (sq, map Plain (map MPair (el v)))
  | MPrint v => Ok (sq, [Plain (MText (dict_print showk showv (el v)))])
  end.

Fixpoint grun (prog : list (mstmt K V)) (sq : store * S) : result :=
  match prog with
  | [] => Ok (sq, [])
  | c :: rest => se <- gstep c sq ;; se' <- grun rest (fst se) ;; Ok (fst se', snd se ++ snd se')
  end.
End Run.
