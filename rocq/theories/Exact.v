(** Exactly where some properties that are false hold. *)
From Coq Require Import String Ascii ZArith List Bool Lia.
From Verif Require Import Outcome IntModel IntSpec ListModel ListSpec SetModel SetSpec SetFacts DictModel DictSpec DictFacts StrModel StrSpec StrSum LiteralFacts IntMore ShowFacts PySpec Py.
Import ListNotations.
Open Scope Z_scope.

(** ** Texts of integers *)

Definition plain (base : Z) (c : ascii) : Prop := StrSpec.blank c \/ c = "+"%char \/ c = "-"%char \/ exists d, digit_val base c d.

Lemma space_plain base c : py_trim c = true -> plain base c -> StrSpec.blank c.
Proof.
  intros S [B|[->|[->|(d & D0 & D)]]]; auto; try discriminate S. exfalso. unfold py_trim in S.
  apply orb_prop in S. destruct S as [S|S]; [apply andb_prop in S; destruct S as (A & B); apply Z.leb_le in A, B; lia|apply Z.eqb_eq in S; lia].
Qed.

Lemma digits_plain base t ds : py_digits base t ds -> Forall (plain base) t -> base <= 36 -> digits_text base t ds /\ ds <> [].
Proof.
  intros D. induction D as [c d H|c d t ds H D IH|c d t ds H D IH]; intros F B.
  - split; [constructor; auto; constructor|discriminate].
  - inversion F; subst. destruct (IH H3 B). split; [constructor; auto|discriminate].
  - inversion F as [|? ? _ F']; subst. inversion F' as [|? ? U _]; subst. exfalso.
    destruct U as [U|[U|[U|(e & E & D')]]]; try discriminate U.
    + destruct U as [U|[U|[U|U]]]; discriminate U.
    + change (byte "_") with 95 in D'. lia.
Qed.

Lemma plain_literal base s z : base <= 36 -> py_int base s z -> Forall (plain base) s -> int_literal base s z.
Proof.
  intros B (b1 & sg & pre & t & b2 & neg & ds & -> & F1 & F2 & S & R & D & V) F.
  apply Forall_app in F. destruct F as (P1 & F). apply Forall_app in F. destruct F as (_ & F).
  apply Forall_app in F. destruct F as (PR & F). apply Forall_app in F. destruct F as (PT & P2).
  assert (N: pre = []).
  { destruct R as [|x q X Q]; auto. exfalso.
    assert (I: plain base x) by (rewrite Forall_forall in PR; apply PR; destruct Q as [-> | ->]; cbn; auto).
    destruct I as [U|[U|[U|(e & E & D')]]].
    - destruct U as [U|[U|[U|U]]]; subst x; destruct X as [(_ & [X|X])|[(_ & [X|X])|(_ & [X|X])]]; discriminate X.
    - subst x; destruct X as [(_ & [X|X])|[(_ & [X|X])|(_ & [X|X])]]; discriminate X.
    - subst x; destruct X as [(_ & [X|X])|[(_ & [X|X])|(_ & [X|X])]]; discriminate X.
    - destruct X as [(-> & [-> | ->])|[(-> & [-> | ->])|(-> & [-> | ->])]];
        match type of D' with context[byte ?c] => let b := eval vm_compute in (byte c) in change (byte c) with b in D' end; lia. }
  subst pre. destruct (digits_plain _ _ _ D PT B) as (DT & NE).
  exists b1, sg, t, b2, neg, ds. cbn [app]. repeat split; auto.
  - clear - F1 P1. induction F1; auto. inversion P1; subst. constructor; auto. eapply space_plain; eauto.
  - clear - F2 P2. induction F2; auto. inversion P2; subst. constructor; auto. eapply space_plain; eauto.
Qed.

Lemma literal_plain base s z : int_literal base s z -> Forall (plain base) s.
Proof.
  intros (b1 & sg & t & b2 & neg & ds & -> & F1 & F2 & S & D & _ & _).
  repeat (apply Forall_app; split).
  - eapply Forall_impl; [|exact F1]. intros c Hc; unfold plain; auto.
  - destruct neg; cbn in S; [subst; constructor; [unfold plain; auto|constructor]|].
    destruct S as [->| ->]; constructor; [unfold plain; auto|constructor].
  - clear - D. induction D; constructor; auto. unfold plain; eauto.
  - eapply Forall_impl; [|exact F2]. intros c Hc; unfold plain; auto.
Qed.

Lemma accepted_plain p base s z : 2 <= base <= 36 -> len s < INT_MAX -> py_int base s z ->
  ((exists r, str_to_integer p s base = Ok r) <-> Forall (fun c => StrSpec.blank c \/ c = "+"%char \/ c = "-"%char \/ exists d, digit_val base c d) s).
Proof.
  intros B L P. change (fun c => StrSpec.blank c \/ c = "+"%char \/ c = "-"%char \/ exists d, digit_val base c d) with (plain base). split.
  - intros (r & E). apply to_integer_literal in E; auto. eapply literal_plain; eauto.
  - intros F. destruct (to_integer_spec p base s L) as (_ & G & _).
    destruct (G B z) as (r & E & _); eauto. apply plain_literal; auto. lia.
Qed.

Lemma constructor_plain s z : py_int 10 s z ->
  ((exists r, int_of_chars s = Ok r) <-> Forall (fun c => c = "+"%char \/ c = "-"%char \/ exists d, digit_val 10 c d) s).
Proof.
  intros P. pose proof (string_constructor s) as C. split.
  - intros (r & E). destruct (literal s) as [y|] eqn:Ls; [|congruence]. clear C.
    assert (D: forall t a v, dec_of a t = Some v -> Forall (fun c => c = "+"%char \/ c = "-"%char \/ exists d, digit_val 10 c d) t).
    { induction t as [|c t IH]; intros a v H; [constructor|]. cbn [dec_of] in H. destruct (digit_of c) as [d|] eqn:Dc; [|discriminate].
      constructor; [|eapply IH; eauto]. right. right. exists d. apply digit_of_val. exact Dc. }
    destruct s as [|c t]; [discriminate|].
    destruct (ascii_dec c "+"%char) as [->|N1]; [|destruct (ascii_dec c "-"%char) as [->|N2]].
    + constructor; auto. cbn [literal] in Ls. destruct t; [discriminate|]. eapply D; eauto.
    + constructor; auto. cbn [literal] in Ls. destruct t as [|c t]; [discriminate|].
      destruct (dec_of 0 (c :: t)) eqn:E'; [|discriminate]. eapply D; eauto.
    + apply (D (c :: t) 0 y). destruct (digit_of c) as [d|] eqn:Dc.
      * rewrite (literal_of_digits _ _ _ Dc) in Ls. exact Ls.
      * destruct c as [[] [] [] [] [] [] [] []]; try exact Ls; contradiction.
  - intros F.
    assert (I: int_literal 10 s z).
    { apply plain_literal; [lia|auto|]. eapply Forall_impl; [|exact F]. intros c H. unfold plain. tauto. }
    rewrite (int_literal_literal s z I) in C; [destruct C as (r & E & _); eauto|].
    intros c Hc Bc. rewrite Forall_forall in F. specialize (F c Hc).
    destruct Bc as [->|[->|[->| ->]]]; (destruct F as [F|[F|(d & F0 & F)]]; [discriminate F|discriminate F|]);
      match type of F with context[byte ?c] => let b := eval vm_compute in (byte c) in change (byte c) with b in F end; lia.
Qed.

(** ** size() after extend *)

Lemma size_truthful {T} (l : list T) : len l < 2 ^ 32 -> (size l = len l <-> len l <= INT_MAX).
Proof.
  intros L. pose proof (Zle_0_nat (length l)). unfold size, len, wrap32, INT_MAX in *. cbn in L.
  destruct (Z_le_gt_dec (Z.of_nat (length l)) 2147483647).
  - rewrite Z.mod_small by lia. lia.
  - replace (Z.of_nat (length l) + 2147483648) with (Z.of_nat (length l) - 2147483648 + 1 * 4294967296) by lia.
    rewrite Z.mod_add by lia. rewrite Z.mod_small by lia. lia.
Qed.

Lemma extend_truthful {T} (w l : list T) : len l + len w < 2 ^ 32 ->
  (size (snd (list_extend w l)) = len (l ++ w) <-> len l + len w <= INT_MAX).
Proof.
  intros L. unfold list_extend, update. cbn [snd]. 
  assert (A: len (l ++ w) = len l + len w) by (unfold len; rewrite app_length; lia).
  rewrite <- A in L |- *. apply size_truthful; auto.
Qed.

(** [n] is the number of keys there are afterwards. *)
Lemma dict_extend_truthful {K V} (ltk : K -> K -> bool) : strict_total ltk -> forall (xs d : list (K * V)) m m' n,
  listing ltk d m -> extended m xs m' -> card (has m') n -> n < 2 ^ 32 ->
  (size (snd (dict_extend ltk xs d)) = n <-> n <= INT_MAX).
Proof.
  intros O xs d m m' n L X C N. unfold dict_extend, update. cbn [snd].
  destruct (range_listing ltk O xs d m m' L X) as (L' & _). pose proof (listing_len ltk O _ _ _ L' C) as E. subst n. apply size_truthful; auto.
Qed.

(** ** add of what is there *)

Lemma set_add_present {T} (lt : T -> T -> bool) : strict_total lt -> forall a x, increasing lt a -> In x a -> len a <= INT_MAX ->
  (len a < INT_MAX -> set_add lt x a = (Ok false, a)) /\ (len a = INT_MAX -> set_add lt x a = (Throw ContainerFull, a)).
Proof.
  intros O a x I H L. destruct (insert_ok lt O x a I) as (_ & _ & F & G & _). specialize (G H).
  assert (B: fst (std_insert lt x a) = false) by (destruct (fst (std_insert lt x a)); [exfalso; apply F; auto|auto]).
  assert (S: size a = len a). { unfold size. apply wrap32_id. pose proof (Zle_0_nat (length a)). unfold len, INT_MAX, INT_MIN in *. lia. }
  unfold set_add, check_full. rewrite S. split; intros M.
  - replace (INT_MAX <=? len a) with false by (symmetry; apply Z.leb_gt; lia).
    destruct (std_insert lt x a) as (b, a'). cbn [fst snd] in *. subst. reflexivity.
  - rewrite M. reflexivity.
Qed.

Lemma dict_add_present {K V} (ltk : K -> K -> bool) : strict_total ltk -> forall (d : list (K * V)) k x v m, listing ltk d m -> m k = Some v -> len d <= INT_MAX ->
  (len d < INT_MAX -> dict_add ltk k x d = (Ok false, d)) /\ (len d = INT_MAX -> dict_add ltk k x d = (Throw ContainerFull, d)).
Proof.
  intros O d k x v m I H L. pose proof (insert_present ltk O k x d m I (ex_intro _ v H)) as G.
  assert (S: size d = len d). { unfold size. apply wrap32_id. pose proof (Zle_0_nat (length d)). unfold len, INT_MAX, INT_MIN in *. lia. }
  unfold dict_add, check_full. rewrite S. split; intros M.
  - replace (INT_MAX <=? len d) with false by (symmetry; apply Z.leb_gt; lia). rewrite G. reflexivity.
  - rewrite M. reflexivity.
Qed.
