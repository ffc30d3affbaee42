(** What Python prints for the values to which the library's values correspond.
    Nothing here refers to the model of the library's printing functions. *)
From Coq Require Import String Ascii ZArith List Bool.
From Verif Require Import Show IntModel IntSpec FracModel ListModel StrModel TupleModel PrintSpec.
Import ListNotations.
Open Scope Z_scope.

(** ", ".join(texts) *)
Fixpoint py_join (ts : list (list ascii)) : list ascii :=
  match ts with
  | [] => []
  | [t] => t
  | t :: ts' => t ++ list_ascii_of_string ", " ++ py_join ts'
  end.

(** ** repr of a str: the quotes, and the characters that are escaped.
    Characters from 128 on are escaped as in a bytes literal; claims about them are not made. *)
Definition hex_digit (n : nat) : ascii := nth n (list_ascii_of_string "0123456789abcdef") "0"%char.
Definition py_quote (s : str) : ascii :=
  if existsb (Ascii.eqb "'") s && negb (existsb (Ascii.eqb """") s) then """"%char else "'"%char.
Definition py_escape (q c : ascii) : list ascii :=
  if Ascii.eqb c "\" || Ascii.eqb c q then ["\"%char; c]
  else if Ascii.eqb c "009" then list_ascii_of_string "\t"
  else if Ascii.eqb c "010" then list_ascii_of_string "\n"
  else if Ascii.eqb c "013" then list_ascii_of_string "\r"
  else if (nat_of_ascii c <? 32)%nat || (127 <=? nat_of_ascii c)%nat then
    list_ascii_of_string "\x" ++ [hex_digit (nat_of_ascii c / 16); hex_digit (nat_of_ascii c mod 16)]
  else [c].
Definition py_repr_str (s : str) : list ascii :=
  py_quote s :: flat_map (py_escape (py_quote s)) s ++ [py_quote s].

(** ** repr(x); the elements of a set or dictionary in the order in which they are listed *)
Fixpoint py_repr (t : ty) : thing t -> list ascii :=
  match t with
  | TMachine => show_int
  | TInt => fun x => show_int (value x)
  | TFraction => fun f =>
      list_ascii_of_string "Fraction(" ++ show_int (num f) ++ list_ascii_of_string ", " ++ show_int (den f) ++ list_ascii_of_string ")"
  | TStr => py_repr_str
  | TList t => fun l => list_ascii_of_string "[" ++ py_join (map (py_repr t) l) ++ list_ascii_of_string "]"
  | TDeque t => fun l => list_ascii_of_string "deque([" ++ py_join (map (py_repr t) l) ++ list_ascii_of_string "])"
  | TSet t => fun l =>
      match l with
      | [] => list_ascii_of_string "set()"
      | _ => list_ascii_of_string "{" ++ py_join (map (py_repr t) l) ++ list_ascii_of_string "}"
      end
  | TDict k v => fun l =>
      list_ascii_of_string "{" ++
      py_join (map (fun p => py_repr k (fst p) ++ list_ascii_of_string ": " ++ py_repr v (snd p)) l) ++
      list_ascii_of_string "}"
  end.

(** str(x), which print(x) writes: strings bare, fractions as n/d. *)
Definition py_str (t : ty) : thing t -> list ascii :=
  match t with
  | TFraction => fun f => if den f =? 1 then show_int (num f) else show_int (num f) ++ list_ascii_of_string "/" ++ show_int (den f)
  | TStr => fun s => s
  | t => py_repr t
  end.

(** str of a tuple *)
Fixpoint py_items {us : list ty} (t : tuple thing us) : list (list ascii) :=
  match t with
  | TNil => []
  | @TCons _ _ u _ x t' => py_repr u x :: py_items t'
  end.
Definition py_tuple (ts : list (list ascii)) : list ascii :=
  match ts with
  | [t] => list_ascii_of_string "(" ++ t ++ list_ascii_of_string ",)"
  | _ => list_ascii_of_string "(" ++ py_join ts ++ list_ascii_of_string ")"
  end.

(** ** The values whose repr is the text the library prints *)
Definition printable (c : ascii) : Prop := (32 <= nat_of_ascii c < 127)%nat /\ c <> "\"%char.
Fixpoint alike (t : ty) : thing t -> Prop :=
  match t with
  | TMachine | TInt => fun _ => True
  | TFraction => fun _ => False
  | TStr => fun s => In "'"%char s /\ ~ In """"%char s /\ Forall printable s
  | TList t => Forall (alike t)
  | TDeque t => fun _ => False
  | TSet t => fun l => l <> [] /\ Forall (alike t) l
  | TDict k v => Forall (fun p => alike k (fst p) /\ alike v (snd p))
  end.
