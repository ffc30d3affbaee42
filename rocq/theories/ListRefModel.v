(** References to the elements of a List, sources/list.hpp. Definitions only.

    The elements live in the buffer of a [std::vector]. An object at a place of a buffer has an address, which is
    never used again. What the members of [std::vector] do to the objects:
    - [push_back] and [insert] keep the objects in front of the place of insertion as long as the capacity allows;
      beyond it they move to another buffer, whose capacity is up to the library ([grow]);
    - [erase] keeps the objects in front of the first one erased;
    - assignment between elements ([std::stable_sort], [std::reverse], [std::rotate], [std::remove], [std::copy_if]) keeps all objects
      and changes their values;
    - assignment of a vector ends the objects of the left side, whether or not the library reuses the memory; moving
      hands over the buffer.
    Clients keep the addresses they get from [operator[]] in pointer variables. *)
From Coq Require Import ZArith List Bool Ascii.
From Verif Require Import Outcome ListModel ListProgModel.
Import ListNotations.
Open Scope Z_scope.

Record vstate (T : Type) := VState {
  va : nat -> list nat;     (* the addresses of the elements of each List variable *)
  vm : nat -> T;            (* what is stored at an address *)
  vl : nat -> bool;         (* whether an object lives there *)
  vk : nat -> Z;            (* the capacity of each List variable *)
  vn : nat;                 (* the next address to be used *)
  vr : nat -> option nat    (* the pointer variables *)
}.
Arguments VState {T}. Arguments va {T}. Arguments vm {T}. Arguments vl {T}. Arguments vk {T}. Arguments vn {T}. Arguments vr {T}.

Inductive rstmt (T : Type) :=
| RDo (c : lstmt T)                       (* a statement of ListProgModel.v *)
| RAddr (r v : nat) (i : Z)               (* r = &v[i]; *)
| RSame (r q : nat)                       (* r = q; *)
| RRead (r : nat)                         (* emit( *r); *)
| RWrite (r : nat) (x : T)                (* *r = x; *)
| RAppend (v r : nat)                     (* v += *r; *)
| RInsert (v : nat) (i : Z) (r : nat)     (* v.insert(i, *r); *)
| RSub (v r : nat)                        (* v -= *r; *)
| RDiv (v r : nat).                       (* v /= *r; *)
Arguments RDo {T}. Arguments RAddr {T}. Arguments RSame {T}. Arguments RRead {T}. Arguments RWrite {T}. Arguments RAppend {T}.
Arguments RInsert {T}. Arguments RSub {T}. Arguments RDiv {T}.

(** What a statement does to the vector of a variable. *)
Inductive vop :=
| ONone                             (* nothing *)
| OAssign (v : nat)                 (* elements are assigned to *)
| OInsert (v k : nat) (n : Z)       (* [n] elements are inserted at position [k] *)
| OErase (v k : nat)                (* elements are assigned to or erased, from position [k] on the places change *)
| OReplace (v : nat)                (* the vector is replaced by a new one *)
| OCopy (v : nat)                   (* another vector is copied into it *)
| OMove (v w : nat).                (* the vector of [w] is moved to it *)

Section Refs.
Context {T : Type} (eqb lt : T -> T -> bool) (show : T -> list ascii) (d : T).
(** The capacity that the library chooses, given the present capacity and the number of elements; it is at least the latter. *)
Context (grow : Z -> Z -> Z).
Notation state := (vstate T).
Notation result := (outcome (state * list (levent T))).

Definition room (c n : Z) : Z := Z.max n (grow c n).

(** The contents of the variables, read through the addresses. *)
Definition lview (h : state) : lstore T := fun v => map (vm h) (va h v).

Definition vset {A} (f : nat -> A) (i : nat) (x : A) : nat -> A := fun j => if Nat.eqb j i then x else f j.
Definition among (l : list nat) (a : nat) : bool := existsb (Nat.eqb a) l.
Fixpoint store_all (l : list nat) (xs : list T) (m : nat -> T) : nat -> T :=
  match l, xs with
  | a :: l, x :: xs => store_all l xs (vset m a x)
  | _, _ => m
  end.

(** Variable [v] now holds [xs]; the first [k] objects stay, the others end and new ones are made. *)
Definition place (v k : nat) (xs : list T) (h : state) : state :=
  let n := (length xs - k)%nat in
  let l := firstn k (va h v) ++ seq (vn h) n in
  VState (vset (va h) v l) (store_all l xs (vm h))
    (fun a => among (seq (vn h) n) a || vl h a && negb (among (skipn k (va h v)) a))
    (vk h) (vn h + n) (vr h).
Definition set_room (v : nat) (c : Z) (h : state) : state := VState (va h) (vm h) (vl h) (vset (vk h) v c) (vn h) (vr h).

Definition apply (o : vop) (s : lstore T) (h : state) : state :=
  match o with
  | ONone => h
  | OAssign v => place v (length (s v)) (s v) h
  | OInsert v k n =>
      let need := len (va h v) + n in
      if need <=? vk h v then place v k (s v) h else set_room v (room (vk h v) need) (place v 0 (s v) h)
  | OErase v k => place v k (s v) h
  | OReplace v => set_room v (room 0 (len (s v))) (place v 0 (s v) h)
  | OCopy v => set_room v (room (vk h v) (len (s v))) (place v 0 (s v) h)
  | OMove v w =>
      VState (vset (vset (va h) v (va h w)) w []) (vm h) (fun a => vl h a && negb (among (va h v) a))
        (vset (vset (vk h) v (vk h w)) w (room 0 0)) (vn h) (vr h)
  end.

(** The vector member that a statement ends up calling, when it does not throw; [s] before and [s'] after it. *)
Definition vop_of (c : lstmt T) (s s' : lstore T) : vop :=
  let at_ v i := Z.to_nat (if i >=? 0 then i else i + size (s v)) in
  match c with
  | LInit v _ => OReplace v                                    (* list.hpp:31-34, implicit operator= *)
  | LCopy v w => if Nat.eqb v w then ONone else OCopy v        (* implicit operator= *)
  | LMove v w => OMove v w                                     (* implicit operator= *)
  | LSet v _ _ => OAssign v                                    (* list.hpp:94 *)
  | LInsert v i _ | LInsertElem v i _ => OInsert v (at_ v i) 1 (* list.hpp:157-158 *)
  | LRemove v i => OErase v (at_ v i)                          (* list.hpp:168-170 *)
  | LAppend v _ => OInsert v (length (s v)) 1                  (* list.hpp:180 *)
  | LAppendList v w => OInsert v (length (s v)) (len (s w))    (* list.hpp:190 *)
  | LSub v x =>                                                (* list.hpp:198-200 *)
      let k := std_find eqb (s v) x in if Nat.eqb k (length (s v)) then ONone else OErase v k
  | LTimes v _ => OReplace v                                   (* list.hpp:209 *)
  | LDiv v _ => OErase v (length (s' v))                       (* list.hpp:215-216 *)
  | LShr v _ | LShl v _ => OAssign v                           (* list.hpp:251 *)
  | LReverse v => OAssign v                                    (* list.hpp:259 *)
  | LUniquify v => OReplace v                                  (* list.hpp:276 *)
  | LSort v => OAssign v                                       (* list.hpp:286 *)
  | LErase v a _ => OErase v (Z.to_nat a)                      (* list.hpp:297 *)
  | LMap v _ => OAssign v                                      (* list.hpp:306 *)
  | LFilter v _ => OErase v (length (s' v))                    (* list.hpp:315-316 *)
  | LExtend v w =>                                             (* list.hpp:325 *)
      if size (s w) <=? INT_MAX - size (s v) then OInsert v (length (s v)) (len (s w)) else ONone
  | LClear v => OErase v 0                                     (* list.hpp:331 *)
  | LSlice u _ _ _ _ | LPlus u _ _ | LPlusElem u _ _ | LMinus u _ _ | LOver u _ _ | LMult u _ _ => OReplace u
  | LGet _ _ | LIndex _ _ _ _ | LContains _ _ _ _ | LCount _ _ | LSize _ | LIsEmpty _ | LEqual _ _ | LPrint _ => ONone
  end.

Definition threw (ev : list (levent T)) : bool := match ev with [LThrow _] => true | _ => false end.

(** A statement of ListProgModel.v. *)
Definition v_do (c : lstmt T) (h : state) : result :=
  match lstep eqb lt show d c (lview h) with
  | Ok (s', ev) => Ok (if threw ev then h else apply (vop_of c (lview h) s') s' h, ev)
  | Throw e => Throw e
  | UB u => UB u
  | OutOfFuel => OutOfFuel
  end.

(** [*r] *)
Definition v_at (h : state) (r : nat) : outcome nat :=
  match vr h r with
  | Some a => if vl h a then Ok a else UB BadDeref
  | None => UB BadDeref
  end.
Definition v_write (a : nat) (x : T) (h : state) : state := VState (va h) (vset (vm h) a x) (vl h) (vk h) (vn h) (vr h).
Definition v_bind (r : nat) (a : option nat) (h : state) : state := VState (va h) (vm h) (vl h) (vk h) (vn h) (vset (vr h) r a).

(** The place of an address in a list of addresses. *)
Fixpoint find_address (a : nat) (l : list nat) : option nat :=
  match l with
  | [] => None
  | b :: l => if Nat.eqb b a then Some O else option_map S (find_address a l)
  end.

(** [v /= *r], list.hpp:213-218: the reference may be to an element of [v], which changes under [std::remove]. *)
Definition v_divide (v a : nat) (h : state) : result :=
  match find_address a (va h v) with
  | Some k =>
      match list_divide eqb (Elem (Z.of_nat k)) (lview h v) with
      | (Ok _, l) => Ok (place v (length l) l h, [])
      | (Throw e, _) => Throw e
      | (UB u, _) => UB u
      | (OutOfFuel, _) => OutOfFuel
      end
  | None => v_do (LDiv v (vm h a)) h
  end.

(** [v[i]] list.hpp:90-95; [push_back] and [insert] accept an element of the vector itself, and [std::find] has done
    its comparisons before [erase] is called. *)
Definition v_step (c : rstmt T) (h : state) : result :=
  match c with
  | RDo c => v_do c h
  | RAddr r v i =>
      match list_at (va h v) i with
      | Ok a => Ok (v_bind r (Some a) h, [])
      | Throw e => Ok (h, [LThrow e])
      | UB u => UB u
      | OutOfFuel => OutOfFuel
      end
  | RSame r q => Ok (v_bind r (vr h q) h, [])
  | RRead r => a <- v_at h r ;; Ok (h, [LElem (vm h a)])
  | RWrite r x => a <- v_at h r ;; Ok (v_write a x h, [])
  | RAppend v r => a <- v_at h r ;; v_do (LAppend v (vm h a)) h
  | RInsert v i r => a <- v_at h r ;; v_do (LInsert v i (vm h a)) h
  | RSub v r => a <- v_at h r ;; v_do (LSub v (vm h a)) h
  | RDiv v r => a <- v_at h r ;; v_divide v a h
  end.

(** A program: the first undefined statement ends it. *)
Fixpoint v_run (prog : list (rstmt T)) (h : state) : result :=
  match prog with
  | [] => Ok (h, [])
  | c :: rest => he <- v_step c h ;; he' <- v_run rest (fst he) ;; Ok (fst he', snd he ++ snd he')
  end.
End Refs.
