(** The library's printed text and Python's. *)
From Coq Require Import String Ascii ZArith List Bool Lia.
From Verif Require Import Outcome Show ShowFacts IntModel IntSpec IntBase IntIO IntMore FracModel FracSpec ListModel ListSpec ListMore
  DequeModel SetModel DictModel StrModel TupleModel PrintSpec PrintFacts PyPrintSpec ExTools.
Import ListNotations.
Open Scope Z_scope.

Definition apart (a b : list ascii) : Prop := forall u v, a ++ u <> b ++ v.

Lemma apart_after : forall a b x y, apart a b -> apart (a ++ x) (b ++ y).
Proof. intros a b x y H u v E. rewrite <- !app_assoc in E. exact (H _ _ E). Qed.
Lemma apart_before : forall c a b, apart a b -> apart (c ++ a) (c ++ b).
Proof. intros c a b H u v E. rewrite <- !app_assoc in E. apply app_inv_head in E. exact (H _ _ E). Qed.
Lemma apart_head : forall c d a b, c <> d -> apart (c :: a) (d :: b).
Proof. intros c d a b N u v E. injection E as E _. contradiction. Qed.
Lemma apart_neq : forall a b, apart a b -> a <> b.
Proof. intros a b H E. apply (H [] []). now rewrite E. Qed.

(** Either alike and the same text, or not and the texts part before either ends. *)
Definition decided (P : Prop) (a b : list ascii) : Prop := P /\ a = b \/ ~ P /\ apart a b.

Lemma print_join : forall T (show : T -> list ascii) l o c,
  print_range show l o c = o :: py_join (map show l) ++ [c].
Proof.
  intros T show l o c. destruct l as [|x l]; auto. cbn [print_range].
  assert (G: forall r y os, print_loop show y r c os = os ++ py_join (map show (y :: r)) ++ [c]).
  { induction r as [|z r]; intros y os; cbn [print_loop].
    - cbn. now rewrite <- app_assoc.
    - rewrite IHr. change (map show (y :: z :: r)) with (show y :: map show (z :: r)).
      replace (py_join (show y :: map show (z :: r))) with (show y ++ list_ascii_of_string ", " ++ py_join (map show (z :: r))) by reflexivity.
      cbn [list_ascii_of_string]. now rewrite <- !app_assoc. }
  rewrite G. reflexivity.
Qed.

Lemma join_decided : forall T (P : T -> Prop) (f g : T -> list ascii) l,
  Forall (fun x => decided (P x) (f x) (g x)) l -> decided (Forall P l) (py_join (map f l)) (py_join (map g l)).
Proof.
  intros T P f g l F. induction F as [|x l D F IH].
  - left. split; auto.
  - destruct l as [|y l].
    + destruct D as [(p & E)|(p & A)]; [left|right]; cbn.
      * split; auto.
      * split; auto. intros G. inversion G; contradiction.
    + assert (J: forall h, py_join (map h (x :: y :: l)) = h x ++ list_ascii_of_string ", " ++ py_join (map h (y :: l))) by reflexivity.
      rewrite !J. destruct D as [(p & E)|(p & A)].
      * rewrite E. destruct IH as [(q & E')|(q & A')]; [left|right].
        { split; [constructor; auto|]. now rewrite E'. }
        { split; [intros G; inversion G; contradiction|]. do 2 apply apart_before. exact A'. }
      * right. split; [intros G; inversion G; contradiction|]. now apply apart_after.
Qed.

Lemma range_decided : forall T (P : T -> Prop) (f g : T -> list ascii) l o c,
  Forall (fun x => decided (P x) (f x) (g x)) l ->
  decided (Forall P l) (print_range f l o c) ([o] ++ py_join (map g l) ++ [c]).
Proof.
  intros T P f g l o c F. rewrite print_join. destruct (join_decided _ _ _ _ _ F) as [(p & E)|(p & A)]; [left|right].
  - split; auto. now rewrite E.
  - split; auto. change (o :: py_join (map f l) ++ [c]) with ([o] ++ py_join (map f l) ++ [c]).
    apply apart_before. now apply apart_after.
Qed.

(** ** Strings *)

Lemma existsb_In : forall c s, existsb (Ascii.eqb c) s = true <-> In c s.
Proof.
  intros c s. rewrite existsb_exists. split.
  - intros (x & I & E). apply Ascii.eqb_eq in E. now subst.
  - intros I. exists c. split; auto. apply Ascii.eqb_refl.
Qed.

Lemma escape_printable : forall q c, c <> q -> printable c -> py_escape q c = [c].
Proof.
  intros q c N ((A & B) & C). unfold py_escape.
  apply Ascii.eqb_neq in N, C. rewrite N, C. cbn [orb].
  destruct (Ascii.eqb_spec c "009"); [subst; cbn in A; lia|].
  destruct (Ascii.eqb_spec c "010"); [subst; cbn in A; lia|].
  destruct (Ascii.eqb_spec c "013"); [subst; cbn in A; lia|].
  destruct (Nat.ltb_spec (nat_of_ascii c) 32); [lia|]. destruct (Nat.leb_spec 127 (nat_of_ascii c)); [lia|]. reflexivity.
Qed.
(** Otherwise a backslash comes first. *)
Lemma escape_other : forall q c, ~ printable c -> exists r, py_escape q c = "\"%char :: r.
Proof.
  intros q c N. unfold py_escape.
  destruct (Ascii.eqb_spec c "\"); [cbn [orb]; eauto|]. cbn [orb].
  destruct (Ascii.eqb c q); [eauto|].
  destruct (Ascii.eqb c "009"); [cbn; eauto|]. destruct (Ascii.eqb c "010"); [cbn; eauto|]. destruct (Ascii.eqb c "013"); [cbn; eauto|].
  destruct (Nat.ltb_spec (nat_of_ascii c) 32); [cbn; eauto|]. destruct (Nat.leb_spec 127 (nat_of_ascii c)); [cbn; eauto|].
  exfalso. apply N. split; auto.
Qed.
Lemma printable_dec : forall c, printable c \/ ~ printable c.
Proof.
  intros c. unfold printable. destruct (Ascii.eqb_spec c "\"); [right; tauto|].
  destruct (Nat.ltb_spec (nat_of_ascii c) 32); [right; lia|]. destruct (Nat.leb_spec 127 (nat_of_ascii c)); [right; lia|]. left. auto.
Qed.

Definition quote := """"%char.

(** Backslashes are doubled: n of them followed by something else against at least n + 1. *)
Lemma doubled_apart : forall s w k, Forall (fun c => c <> quote) s ->
  apart (s ++ [quote]) (repeat "\"%char (S k) ++ flat_map (py_escape quote) s ++ w).
Proof.
  induction s as [|c s]; intros w k F.
  - cbn [app repeat]. apply apart_head. discriminate.
  - inversion F as [|? ? Hc Hs]; subst. destruct (Ascii.eqb_spec c "\") as [->|N].
    + cbn [app repeat flat_map]. replace (py_escape quote "\") with ["\"%char; "\"%char] by reflexivity.
      intros u v E. injection E as E. apply (IHs w (S k) Hs u v). rewrite E. clear.
      rewrite <- !app_assoc. cbn [app]. 
      replace (repeat "\"%char (S (S k))) with (repeat "\"%char k ++ ["\"%char; "\"%char]).
      { rewrite <- !app_assoc. reflexivity. }
      clear. induction k; auto. cbn [repeat app] in *. now rewrite IHk.
    + cbn [app repeat]. apply apart_head. auto.
Qed.

Lemma escaped_decided : forall s w, Forall (fun c => c <> quote) s ->
  decided (Forall printable s) (s ++ [quote]) (flat_map (py_escape quote) s ++ [quote]) /\
  (~ Forall printable s -> apart (s ++ [quote]) (flat_map (py_escape quote) s ++ w)).
Proof.
  assert (G: forall s w, Forall (fun c => c <> quote) s -> ~ Forall printable s ->
    apart (s ++ [quote]) (flat_map (py_escape quote) s ++ w)).
  { induction s as [|c s]; intros w F N; [exfalso; auto|]. inversion F as [|? ? Hc Hs]; subst.
    destruct (printable_dec c) as [P|P].
    - cbn [app flat_map]. rewrite escape_printable by auto. cbn [app].
      change (apart ([c] ++ (s ++ [quote])) ([c] ++ (flat_map (py_escape quote) s ++ w))). apply apart_before. apply IHs; auto.
    - destruct (Ascii.eqb_spec c "\") as [->|Q].
      + cbn [app flat_map]. replace (py_escape quote "\") with ["\"%char; "\"%char] by reflexivity. cbn [app].
        change (apart (["\"%char] ++ (s ++ [quote])) (["\"%char] ++ (repeat "\"%char 1 ++ flat_map (py_escape quote) s ++ w))).
        apply apart_before. now apply doubled_apart.
      + destruct (escape_other quote c P) as (r & E). cbn [app flat_map]. rewrite E. cbn [app]. now apply apart_head. }
  intros s w F. split; [|intros N; now apply G].
  assert (D: Forall printable s \/ ~ Forall printable s).
  { clear. induction s as [|c s [I|I]]; [left; auto| |].
    - destruct (printable_dec c); [left; auto|right; intros H'; inversion H'; contradiction].
    - right. intros H'; inversion H'; contradiction. }
  destruct D as [D|D]; [left|right; split; auto].
  split; auto. f_equal. clear G. induction s as [|c s]; auto. inversion F; inversion D; subst.
  cbn [flat_map]. rewrite escape_printable by auto. cbn [app]. f_equal. auto.
Qed.

Lemma str_decided : forall s, decided (In "'"%char s /\ ~ In """"%char s /\ Forall printable s) (str_print s) (py_repr_str s).
Proof.
  intros s. unfold str_print, py_repr_str, py_quote.
  destruct (existsb (Ascii.eqb "'") s) eqn:A; [apply existsb_In in A|].
  - destruct (existsb (Ascii.eqb """") s) eqn:B; [apply existsb_In in B|].
    + cbn [andb negb]. right. split; [tauto|]. apply apart_head. discriminate.
    + assert (B': ~ In """"%char s) by (rewrite <- existsb_In; congruence). clear B. cbn [andb negb].
      assert (F: Forall (fun c => c <> quote) s) by (apply Forall_forall; intros c I ->; contradiction).
      destruct (escaped_decided s [] F) as ([(p & E)|(p & H)] & _); unfold quote in *; [left|right].
      * split; auto. f_equal. exact E.
      * split; [tauto|].
        change (apart ([""""%char] ++ (s ++ [""""%char])) ([""""%char] ++ (flat_map (py_escape """") s ++ [""""%char]))).
        now apply apart_before.
  - cbn [andb]. right. split; [|apply apart_head; discriminate].
    intros (H & _). apply existsb_In in H. congruence.
Qed.

(** ** All types *)

Lemma show_head : forall z, exists c r, show_int z = c :: r /\ c <> "F"%char.
Proof.
  intros z. destruct (show_int_spec z) as (_ & U). destruct U as [->|(c & ds & E & (d & Hd & _) & F)].
  - exists "0"%char, []. split; auto. discriminate.
  - destruct E as [-> | ->].
    + exists c, ds. split; auto. intros ->. discriminate Hd.
    + exists "-"%char, (c :: ds). split; auto. discriminate.
Qed.

Lemma repr_decided : forall t x, held t x -> decided (alike t x) (text t x) (py_repr t x).
Proof.
  fix IH 1. intros t. destruct t as [| | | |t|t|t|k v]; intros x H; cbn [alike text py_repr] in *.
  - left. auto.
  - left. split; auto. apply int_print_show. split; auto.
  - right. split; auto. unfold frac_print.
    assert (G: exists c r, (if den x =? 1 then show_int (num x) else show_int (num x) ++ slash :: show_int (den x)) = c :: r /\ c <> "F"%char).
    { destruct (show_head (num x)) as (c & r & -> & N). destruct (den x =? 1); cbn [app]; eauto. }
    destruct G as (c & r & -> & N). cbn [list_ascii_of_string app]. now apply apart_head.
  - apply str_decided.
  - apply range_decided. cbn [held] in H. eapply Forall_impl; [|exact H]. apply IH.
  - right. split; auto. unfold deq_print. rewrite print_join. cbn [list_ascii_of_string app]. apply apart_head. discriminate.
  - unfold set_print. destruct x as [|a l].
    + right. split; [tauto|]. cbn. apply apart_head. discriminate.
    + assert (D: decided (Forall (alike t) (a :: l)) (print_range (text t) (a :: l) "{" "}") (["{"%char] ++ py_join (map (py_repr t) (a :: l)) ++ ["}"%char])).
      { apply range_decided. cbn [held] in H. eapply Forall_impl; [|exact H]. apply IH. }
      destruct D as [(p & E)|(p & E)]; [left|right]; (split; [|exact E]).
      * split; auto. discriminate.
      * tauto.
  - unfold dict_print. apply range_decided. cbn [held] in H. eapply Forall_impl; [|exact H]. cbn beta. intros (a & b) (Ha & Hb). cbn [fst snd] in *.
    unfold show_pair. cbn [fst snd].
    destruct (IH k a Ha) as [(p & E)|(p & E)].
    + rewrite E. destruct (IH v b Hb) as [(q & E')|(q & E')]; [left|right].
      * split; auto. now rewrite E'.
      * split; [tauto|]. do 2 apply apart_before. exact E'.
    + right. split; [tauto|]. now apply apart_after.
Qed.

Lemma repr_exact : forall t x, held t x -> (text t x = py_repr t x <-> alike t x).
Proof.
  intros t x H. destruct (repr_decided t x H) as [(p & E)|(p & E)].
  - tauto.
  - apply apart_neq in E. tauto.
Qed.

Lemma str_exact : forall t x, held t x ->
  (text t x = py_str t x <-> match t with TFraction => True | TStr => False | _ => alike t x end).
Proof.
  intros t x H. destruct t; try exact (repr_exact _ _ H).
  - cbn [text py_str]. unfold frac_print. destruct (den x =? 1); split; auto.
  - cbn [text py_str]. split; [|tauto]. unfold str_print. intros E. apply (f_equal (@length ascii)) in E.
    cbn [length] in E. rewrite app_length in E. cbn in E. lia.
Qed.

Lemma items_decided : forall us (t : tuple thing us), each held t ->
  decided (each alike t) (print_rest text t) (py_join (py_items t)) /\
  (forall u (x : thing u), held u x -> decided (alike u x /\ each alike t) (print_rest text (TCons x t)) (py_join (py_items (TCons x t)))).
Proof.
  intros us t. induction t as [|u us x t IH]; intros H.
  - split; [left; split; cbn; auto|]. intros u x Hx. cbn. rewrite !app_nil_r.
    destruct (repr_decided u x Hx) as [(p & E)|(p & E)]; [left|right]; (split; [tauto|exact E]).
  - cbn [each] in H. destruct H as (Hx & Ht). destruct (IH Ht) as (_ & D).
    assert (G: decided (each alike (TCons x t)) (print_rest text (TCons x t)) (py_join (py_items (TCons x t)))) by (apply D; auto).
    split; auto. intros v y Hy.
    assert (L: print_rest text (TCons y (TCons x t)) = text v y ++ list_ascii_of_string ", " ++ print_rest text (TCons x t)).
    { cbn [print_rest]. replace (tuple_size (TCons y (TCons x t)) =? 1) with false; auto.
      symmetry. apply Z.eqb_neq. unfold tuple_size. cbn. lia. }
    rewrite L. replace (py_join (py_items (TCons y (TCons x t)))) with (py_repr v y ++ list_ascii_of_string ", " ++ py_join (py_items (TCons x t))) by reflexivity.
    destruct (repr_decided v y Hy) as [(p & E)|(p & E)].
    + rewrite E. destruct G as [(q & E')|(q & E')]; [left|right].
      * split; auto. now rewrite E'.
      * split; [tauto|]. do 2 apply apart_before. exact E'.
    + right. split; [tauto|]. now apply apart_after.
Qed.

Lemma tuple_exact : forall us (t : tuple thing us), each held t ->
  (tuple_print text t = py_tuple (py_items t) <-> each alike t).
Proof.
  intros us t H.
  assert (G: forall a b P, decided P a b -> (chars "(" ++ a ++ chars ")" = chars "(" ++ b ++ chars ")" <-> P)).
  { intros a b P D. destruct D as [(p & E)|(p & E)].
    - split; auto. intros _. now rewrite E.
    - split; [|tauto]. intros Q. exfalso. apply app_inv_head in Q. exact (E _ _ Q). }
  destruct t as [|u us x t].
  - cbn. split; auto.
  - destruct t as [|v us y t].
    + cbn [tuple_print py_items py_tuple each] in *. destruct H as (Hx & _).
      destruct (repr_decided u x Hx) as [(p & E)|(p & E)].
      * rewrite E. tauto.
      * split; [|tauto]. intros Q. exfalso. apply app_inv_head in Q. exact (E _ _ Q).
    + destruct (items_decided _ (TCons x (TCons y t)) H) as (D & _). exact (G _ _ _ D).
Qed.

Lemma print_python_refuted :
  text TStr (chars "a") = chars """a""" /\ py_str TStr (chars "a") = chars "a" /\
  text (TList TStr) [chars "a"] = chars "[""a""]" /\ py_str (TList TStr) [chars "a"] = chars "['a']" /\
  text (TDeque TMachine) [1; 2] = chars "<1, 2>" /\ py_str (TDeque TMachine) [1; 2] = chars "deque([1, 2])" /\
  text (TSet TMachine) [] = chars "{}" /\ py_str (TSet TMachine) [] = chars "set()" /\
  text (TList TFraction) [Frac 1 2] = chars "[1/2]" /\ py_str (TList TFraction) [Frac 1 2] = chars "[Fraction(1, 2)]".
Proof. vm_compute. repeat split. Qed.
