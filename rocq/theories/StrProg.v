(** Programs over strings behave like programs over plain texts. *)
From Coq Require Import String Ascii ZArith List Bool Lia.
From Verif Require Import Outcome IntModel IntSpec IntBase ListModel ListSpec ListFacts ListMore StreamModel Show ShowFacts
  StrModel StrSpec StrFacts StrMore StrNum StrSum StrProgModel StrProgSpec ExTools.
Import ListNotations.
Open Scope Z_scope.

Lemma until_null_c_str : forall t, until_null t (c_str t).
Proof.
  induction t as [|c t (F & IH)]; unfold c_str in *; cbn [take_while].
  - split; auto.
  - change (code c) with (byte c). destruct (Z.eqb_spec (byte c) 0) as [E|E]; cbn [negb].
    + split; auto. right. exists c, t. auto.
    + split; [constructor; auto|]. destruct IH as [IH|(d & r & D & IH)].
      * left. rewrite <- IH. auto.
      * right. exists d, r. split; auto. rewrite IH at 1. auto.
Qed.

Lemma until_null_unique : forall t r r', until_null t r -> until_null t r' -> r = r'.
Proof.
  intros t r. revert t. induction r as [|c r IH]; intros t [|c' r'] (F & E) (F' & E'); auto.
  - exfalso. inversion F'; subst. destruct E as [->|(d & x & D & ->)], E' as [E'|(d' & x' & D' & E')]; cbn in E'; try discriminate; inversion E'; subst; contradiction.
  - exfalso. inversion F; subst. destruct E' as [->|(d & x & D & ->)], E as [E|(d' & x' & D' & E)]; cbn in E; try discriminate; inversion E; subst; contradiction.
  - inversion F; inversion F'; subst. destruct t as [|e t].
    { destruct E as [E|(d & x & D & E)]; discriminate. }
    assert (e = c /\ (t = r \/ exists d x, byte d = 0 /\ t = r ++ d :: x)) as (-> & G).
    { destruct E as [E|(d & x & D & E)]; inversion E; split; eauto. }
    assert (c = c' /\ (t = r' \/ exists d x, byte d = 0 /\ t = r' ++ d :: x)) as (-> & G').
    { destruct E' as [E'|(d & x & D & E')]; inversion E'; split; eauto. }
    f_equal. apply (IH t); split; auto.
Qed.

Lemma schar_signed : forall c, schar c = if byte c <? 128 then byte c else byte c - 256.
Proof. auto. Qed.

Lemma strips_spec : forall ch c, stripped_char ch c = true <-> strips ch c.
Proof.
  intros ch c. unfold stripped_char, strips. pose proof (byte_range c). rewrite schar_signed. destruct (Z.eqb_spec ch (-1)).
  - rewrite Z.leb_le. destruct (Z.ltb_spec (byte c) 128); lia.
  - rewrite Z.eqb_eq. tauto.
Qed.

Lemma strip_all : forall s ch, len s <= INT_MAX -> exists r, str_strip s ch = Ok r /\ trimmed (strips ch) s r.
Proof.
  intros s ch LS. destruct (strip_spec s ch LS) as (r & E & T). exists r. split; auto. eapply trimmed_ext; [|exact T]. intros c _. apply strips_spec.
Qed.

Lemma strips_dec : forall ch c, strips ch c \/ ~ strips ch c.
Proof. intros ch c. rewrite <- strips_spec. destruct (stripped_char ch c); auto. Qed.

Lemma forall2_fun : forall A B (R : A -> B -> Prop), (forall x y y', R x y -> R x y' -> y = y') -> forall l m m', Forall2 R l m -> Forall2 R l m' -> m = m'.
Proof.
  intros A B R U l m m' F. revert m'. induction F; intros m' G; inversion G; subst; auto. f_equal; eauto.
Qed.

Lemma lit_dec : forall base s, 2 <= base <= 36 -> len s < INT_MAX -> (exists z, int_literal base s z) \/ (forall z, ~ int_literal base s z).
Proof.
  intros base s B L. assert (NB: forall e, str_to_integer Benign s base = Throw e -> forall z, ~ int_literal base s z).
  { intros e E z I. destruct (to_integer_ok Benign base s z B I) as (x & X & _). congruence. }
  unfold str_to_integer in NB. destruct (Z.ltb_spec base 2); [lia|]. destruct (Z.ltb_spec 36 base); [lia|]. cbn [orb] in NB.
  destruct (integer_loop_sound Benign base (size s) s S_START [] true (MkInt 0 []) B) as (st & nn & x & E & I).
  - rewrite size_ok by lia. pose proof (len_nonneg _ s). lia.
  - split; auto. split; auto. apply repr_zero.
  - discriminate.
  - rewrite E in NB. cbn [bind app] in *. destruct st; try (right; eapply NB; reflexivity); left.
    + destruct I as (b1 & sg & t & ds & -> & I1 & I2 & I3 & I4 & I5). eexists. exists b1, sg, t, [], (negb nn), ds. rewrite app_nil_r. repeat split; eauto.
    + destruct I as (b1 & sg & t & ds & b2 & -> & I1 & I2 & I3 & I4 & I5 & I6). eexists. exists b1, sg, t, b2, (negb nn), ds. repeat split; eauto.
Qed.

Lemma argument_exists : forall s a, argument s a (arg_text s a).
Proof. intros s []; cbn [arg_text]; constructor. apply until_null_c_str. Qed.

Lemma argument_unique : forall s a t t', argument s a t -> argument s a t' -> t = t'.
Proof. intros s a t t' A B. destruct A; inversion B; subst; auto. eapply until_null_unique; eauto. Qed.

Lemma args_exist : forall s args, Forall2 (argument s) args (map (arg_text s) args).
Proof. intros s args. induction args; cbn [map]; constructor; auto. apply argument_exists. Qed.

Lemma bool_says : forall (b f : bool) P, (b = true <-> P) -> says f P -> f = b.
Proof. intros [] [] P; unfold says; intuition. Qed.

Section Prog.
Variable q : policy.
Notation step := (xstep ConstBenign q).

Ltac lens := repeat match goal with
  | X : context [Z.of_nat (length ?l)] |- _ => change (Z.of_nat (length l)) with (len l) in X
  | |- context [Z.of_nat (length ?l)] => change (Z.of_nat (length l)) with (len l)
  end.

Lemma short_str : forall s v, short s -> len (strs s v) < INT_MAX.
Proof. intros s v (S & _). apply S. Qed.
Lemma short_row : forall s l, short s -> len (rows s l) <= INT_MAX.
Proof. intros s l (_ & S). apply S. Qed.
Hint Resolve short_str short_row : core.

Lemma short_le : forall s v, short s -> len (strs s v) <= INT_MAX.
Proof. intros s v S. pose proof (short_str s v S). lia. Qed.
Hint Resolve short_le : core.

Lemma erase_ok : forall s i j a m b, len s < INT_MAX -> s = a ++ m ++ b -> len a = i -> len m = j - i -> str_erase s i j = Ok (a ++ b).
Proof.
  intros s i j a m b L E A M. pose proof (len_nonneg _ a). pose proof (len_nonneg _ m). pose proof (len_nonneg _ b).
  destruct (str_erase_spec s i j L) as (_ & P & _).
  destruct P as (a' & m' & b' & E' & A' & M' & ->); [lia|rewrite E, !len_app; lia|].
  destruct (cut_unique _ s a (m ++ b) a' (m' ++ b') i) as (-> & X); [split; auto|split; auto|]. f_equal. f_equal.
  destruct (cut_unique _ (m ++ b) m b m' b' (j - i)) as (_ & ->); auto; split; auto; unfold len in *; lia.
Qed.

Lemma computes_step : forall s c u r, short s -> xint c -> computes s c u r -> step c s = Ok (set_str s u r, []).
Proof.
  intros s c u r S A H. destruct H; cbn [xint] in A; lens; cbn [xstep]; try reflexivity.
  - unfold str_of_chars. rewrite (until_null_unique _ _ _ (until_null_c_str t) H). auto.
  - destruct (str_times_spec (strs s v) n (short_le _ _ S)) as (_ & P & _). rewrite P by auto. auto.
  - destruct (str_shl_spec (strs s v) n (short_le _ _ S)) as (r' & -> & R). rewrite (rotated_unique _ (strs s v) r' r n n); auto.
  - destruct (Z.eq_dec n INT_MIN) as [->|N].
    + assert (len (strs s v) <= 1) by lia. unfold str_shr. rewrite size_ok by auto. destruct (Z.leb_spec (len (strs s v)) 1); [|lia].
      cbn [orb xlet]. rewrite (rotated_unique _ (strs s v) (strs s v) r (- INT_MIN) (- INT_MIN)); auto. apply rotated_short. auto.
    + destruct (str_shr_spec (strs s v) n (short_le _ _ S)) as (r' & -> & R); [lia|]. rewrite (rotated_unique _ (strs s v) r' r (- n) (- n)); auto.
  - unfold str_reverse. rewrite into_buffer_ok by auto. auto.
  - rewrite (forall2_fun _ _ bit5_set) with (l := strs s v) (m := r) (m' := str_lower (strs s v)); auto; [|exact (lower_bytes _)].
    intros x y y' X Y. apply byte_inj. unfold bit5_set in *. congruence.
  - rewrite (forall2_fun _ _ bit5_clear) with (l := strs s v) (m := r) (m' := str_upper (strs s v)); auto; [|exact (upper_bytes _)].
    intros x y y' X Y. apply byte_inj. unfold bit5_clear in *. congruence.
  - rewrite (erase_ok (strs s v) i j a m b); auto.
  - destruct (replace_spec (strs s v) (strs s w) (strs s x) (short_le _ _ S) H) as (ps' & P & ->). rewrite (pieces_unique _ _ _ _ H0 P). auto.
  - rewrite H, replace_empty_any. rewrite (until_null_unique _ _ _ (until_null_c_str (strs s x)) H0). auto.
  - destruct (strip_all (strs s v) ch (short_le _ _ S)) as (r' & -> & T). rewrite (trimmed_unique _ _ _ _ (strips_dec ch) T H). auto.
  - destruct (str_slice_spec (strs s v) a b st (short_str _ _ S)) as (_ & _ & P). cbv zeta in P.
    destruct (P H H0 H1) as [(_ & r' & -> & R)|(F & _)]; [|contradiction]. rewrite (sliced_unique _ _ _ _ _ _ _ R H3). auto.
  - rewrite (forall2_fun _ _ (argument s) (argument_unique s) _ _ _ (args_exist s args) H).
    rewrite (formatted_unique _ _ _ _ (format_spec (strs s v) texts) H0). auto.
  - rewrite join_spec; auto.
  - pose proof (at_spec _ (rows s l) i (short_row _ _ S)) as P. rewrite H in P. destruct P as (y & P1 & ->). replace y with r by congruence. auto.
Qed.

Lemma push_full : forall (l : list str) x, len l = INT_MAX -> push l x = Throw ContainerFull.
Proof.
  intros l x L. unfold push, on_copy. destruct (append_spec _ l x ltac:(lia)) as (-> & _); auto.
Qed.

Lemma throws_step : forall s c e, short s -> xint c -> throws s c e -> step c s = Ok (s, [XThrow e]).
Proof.
  intros s c e S A H. destruct H; cbn [xint] in A; lens; cbn [xstep].
  - destruct (str_times_spec (strs s v) n (short_le _ _ S)) as (P & _). rewrite P by auto. auto.
  - destruct (str_erase_spec (strs s v) i j (short_str _ _ S)) as (P & _). rewrite P by auto. auto.
  - destruct (str_slice_spec (strs s v) a b 0 (short_str _ _ S)) as (P & _). rewrite P by auto. auto.
  - destruct (str_slice_spec (strs s v) a b st (short_str _ _ S)) as (_ & P & _). rewrite P by auto. auto.
  - pose proof (at_spec _ (rows s l) i (short_row _ _ S)) as P. rewrite H in P. rewrite P. auto.
  - rewrite H, split_empty_sep. auto.
  - rewrite push_full; auto.
  - pose proof (str_at_spec (strs s v) i (short_le _ _ S)) as P. rewrite H in P. rewrite P. auto.
  - destruct (to_integer_spec q base (strs s v) (short_str _ _ S)) as (P & _). rewrite P by auto. auto.
  - destruct (to_integer_spec q base (strs s v) (short_str _ _ S)) as (_ & _ & P). rewrite P by auto. auto.
Qed.

Lemma less_says : forall s t, (match str_cmp s t with Lt => true | _ => false end) = true <-> lex_lt byte_lt s t.
Proof.
  intros s t. destruct str_order as (C & I & Tr). specialize (C s t). destruct (str_cmp s t); inversion C; subst; intuition; try discriminate.
  - exfalso. eapply I; eauto.
  - exfalso. eapply I. eapply Tr; eauto.
Qed.

Lemma shows_step : forall s c ev, short s -> xint c -> shows s c ev -> step c s = Ok (s, ev).
Proof.
  intros s c ev S A H. destruct H; cbn [xint] in A; lens; cbn [xstep]; try reflexivity.
  - pose proof (str_at_spec (strs s v) i (short_le _ _ S)) as P. rewrite H in P. destruct P as (y & P1 & ->). replace y with c by congruence. auto.
  - rewrite size_ok by auto. auto.
  - rewrite (bool_says (str_is_empty (strs s v)) b (strs s v = [])); auto. destruct (strs s v); cbn; intuition discriminate.
  - destruct (find_spec (strs s v) (strs s w) a b (short_le _ _ S) H) as (r' & -> & F).
    rewrite (first_occurrence_unique _ _ _ _ r' r (proj1 H) F); auto.
  - rewrite find_beyond by auto. auto.
  - destruct (contains_spec (strs s v) (strs s w) a b (short_le _ _ S) H) as (b' & -> & F). cbn [xemit].
    rewrite <- (bool_says b' f _ F); auto.
  - unfold str_contains. rewrite find_beyond by auto. auto.
  - destruct (count_all (strs s v) (strs s w) (short_le _ _ S)) as (P & _). destruct (P H) as (n & -> & (js' & J & N) & M). cbn [xemit].
    change (len js) with (Z.of_nat (length js)). replace n with (length js); auto. pose proof (M js H0). pose proof (H1 js' J). lia.
  - destruct (count_all (strs s v) (strs s w) (short_le _ _ S)) as (_ & P & _). rewrite P by auto. auto.
  - rewrite (bool_says _ b _ (starts_spec (strs s v) (strs s w))); auto.
  - rewrite (bool_says _ b _ (ends_spec (strs s v) (strs s w))); auto.
  - rewrite (bool_says _ b _ (less_says (strs s v) (strs s w))); auto.
  - rewrite (bool_says _ b _ (str_eqb_spec (strs s v) (strs s w))); auto.
  - destruct (to_integer_spec q base (strs s v) (short_str _ _ S)) as (_ & P & _). destruct (P H z H0) as (x & -> & R). cbn [bind xemit].
    rewrite (int_print_show x z R). auto.
  - rewrite size_ok by auto. auto.
  - unfold list_print. rewrite print_spec. auto.
Qed.

Theorem complete : forall c s s' ev, short s -> xint c -> astep c s s' ev -> step c s = Ok (s', ev).
Proof.
  intros c s s' ev S A H. destruct H.
  - apply computes_step; auto.
  - reflexivity.
  - cbn [xstep str_move const_write bind fst snd]. destruct (Nat.eqb_spec u v); [contradiction|]. auto.
  - cbn [xstep]. destruct (split_all (strs s v) (strs s w) true (short_str _ _ S) H) as (ps' & P & _ & _ & ->). rewrite (pieces_unique _ _ _ _ H0 P). auto.
  - cbn [xstep]. destruct (split_all (strs s v) (strs s w) false (short_str _ _ S) H) as (ps' & P & _ & _ & ->). rewrite (pieces_unique _ _ _ _ H0 P).
    cbn [xrow]. replace (filter (fun t => match t with [] => false | _ => true end) ps') with (filter (fun x => negb (str_is_empty x)) ps'); auto.
    apply filter_ext. intros []; auto.
  - cbn [xstep]. rewrite push_ok by exact H. auto.
  - apply throws_step; auto.
  - apply shows_step; auto.
Qed.

(** The specification covers everything that is not undefined. *)
Theorem sound : forall c s, short s -> xint c ->
  (exists s' ev, astep c s s' ev) \/ (undefined c s /\ exists u, step c s = UB u).
Proof.
  intros c s S A.
  assert (CO: forall u r, computes s c u r -> exists s' ev, astep c s s' ev) by (intros; do 2 eexists; apply a_let; eauto).
  assert (TH: forall e, throws s c e -> exists s' ev, astep c s s' ev) by (intros; do 2 eexists; apply a_throw; eauto).
  assert (SH: forall ev, shows s c ev -> exists s' ev, astep c s s' ev) by (intros; do 2 eexists; apply a_show; eauto).
  destruct c; cbn [xint undefined] in *; lens;
    try (pose proof (short_str _ v S) as Sv; pose proof (short_le _ v S) as Lv; pose proof (len_nonneg _ (strs s v)));
    try (left; solve [eapply CO; constructor | eapply SH; constructor]).
  - left. eapply CO. constructor. apply until_null_c_str.
  - left. do 2 eexists. apply a_move.
  - destruct (Nat.eq_dec u v) as [->|N]; [right|left; do 2 eexists; apply a_move_assign; auto].
    split; auto. cbn [xstep str_move const_write bind]. rewrite Nat.eqb_refl. eauto.
  - destruct (str_times_spec (strs s v) n Lv) as (P1 & P2 & P3). destruct (Z_lt_dec n 0) as [N|N].
    + left. eapply TH. constructor. auto.
    + destruct (Z_le_dec (len (strs s v) * n) INT_MAX).
      * left. eapply CO. apply c_times; lens; lia.
      * right. split; [lens; lia|]. cbn [xstep]. rewrite P3 by lia. cbn [xlet]. eauto.
  - left. destruct (str_shl_spec (strs s v) n Lv) as (r & _ & R). eapply CO. apply c_shl. eauto.
  - destruct (Z.eq_dec n INT_MIN) as [->|N].
    + destruct (Z_le_dec (len (strs s v)) 1).
      * left. eapply CO. apply c_shr; [right; lens; auto|]. apply rotated_short. auto.
      * right. split; [lens; split; auto; lia|]. cbn [xstep]. rewrite str_shr_min by lia. cbn [xlet]. eauto.
    + left. destruct (str_shr_spec (strs s v) n Lv) as (r & _ & R); [lia|]. eapply CO. apply c_shr; eauto. lia.
  - left. eapply CO. apply c_lower. exact (lower_bytes _).
  - left. eapply CO. apply c_upper. exact (upper_bytes _).
  - assert (dec: {0 <= a <= len (strs s v) /\ 0 <= b <= len (strs s v)} + {~ (0 <= a <= len (strs s v)) \/ ~ (0 <= b <= len (strs s v))}).
    { destruct (Z_le_dec 0 a), (Z_le_dec a (len (strs s v))), (Z_le_dec 0 b), (Z_le_dec b (len (strs s v))); (left; lia) || (right; lia). }
    destruct dec as [(B1 & B2)|B]; [|left; eapply TH; constructor; lens; auto].
    destruct (Z_lt_dec b a) as [G|G].
    + right. split; [lens; lia|]. destruct (str_erase_spec (strs s v) a b Sv) as (_ & _ & P). cbn [xstep]. rewrite P by lia. cbn [xlet]. eauto.
    + left. destruct (erase_cut _ (strs s v) a b) as (x & m & y & C1 & C2 & C3); [lia|lia|]. eapply CO. eapply c_erase; eauto.
  - left. destruct (strs s w) as [|ch t] eqn:E.
    + eapply CO. eapply c_replace_empty; auto. apply until_null_c_str.
    + destruct (pieces_exists (strs s w)) with (s := strs s v) as (ps & P); [congruence|]. eapply CO. eapply c_replace; eauto. congruence.
  - left. destruct (strip_all (strs s v) ch Lv) as (r & _ & R). eapply CO. apply c_strip. eauto.
  - destruct (str_slice_spec (strs s v) a b st Sv) as (_ & _ & P3). cbv zeta in P3.
    destruct (Z.eq_dec st 0) as [->|N]; [left; eapply TH; constructor|].
    assert (dec: {- len (strs s v) <= a < len (strs s v) /\ - len (strs s v) - 1 <= b <= len (strs s v)} +
                 {~ (- len (strs s v) <= a < len (strs s v)) \/ ~ (- len (strs s v) - 1 <= b <= len (strs s v))}).
    { destruct (Z_le_dec (- len (strs s v)) a), (Z_lt_dec a (len (strs s v))), (Z_le_dec (- len (strs s v) - 1) b), (Z_le_dec b (len (strs s v))); (left; lia) || (right; lia). }
    destruct dec as [(B1 & B2)|B]; [|left; eapply TH; constructor; auto].
    destruct (P3 N B1 B2) as [(F & r & _ & R)|(F & E)].
    + left. eapply CO. eapply c_slice; eauto.
    + right. split; [auto|]. cbn [xstep]. rewrite E. cbn [xlet]. eauto.
  - left. eapply CO. eapply c_format; [apply args_exist|apply format_spec].
  - left. pose proof (at_spec _ (rows s l) i (short_row _ _ S)) as P. destruct (position (len (rows s l)) i) as [k|] eqn:E.
    + destruct P as (x & P & _). eapply CO. eapply c_row_at; eauto.
    + eapply TH. constructor. auto.
  - left. destruct (strs s w) as [|ch t] eqn:E.
    + eapply TH. constructor. auto.
    + destruct (pieces_exists (strs s w)) with (s := strs s v) as (ps & P); [congruence|]. destruct keep.
      * do 2 eexists. eapply a_split; eauto. congruence.
      * do 2 eexists. eapply a_split_drop; eauto. congruence.
  - left. pose proof (short_row s l S). destruct (Z.eq_dec (len (rows s l)) INT_MAX).
    + eapply TH. constructor. auto.
    + do 2 eexists. apply a_row_append. lens. lia.
  - left. pose proof (str_at_spec (strs s v) i Lv) as P. destruct (position (len (strs s v)) i) as [k|] eqn:E.
    + destruct P as (x & P & _). eapply SH. eapply o_at; eauto.
    + eapply TH. constructor. auto.
  - left. destruct (strs s v) eqn:E.
    + eapply SH. apply (o_empty s v true). unfold says. rewrite E. tauto.
    + eapply SH. apply (o_empty s v false). unfold says. rewrite E. split; discriminate.
  - destruct (Z_lt_dec (len (strs s v)) a) as [G|G]; [left; eapply SH; apply o_find_beyond; auto|].
    assert (dec: {0 <= a <= Z.min b (len (strs s v))} + {a < 0 \/ b < a}) by (destruct (Z_lt_dec a 0), (Z_lt_dec b a); (left; lia) || (right; lia)).
    destruct dec as [B|B].
    + left. destruct (find_spec (strs s v) (strs s w) a b Lv B) as (r & _ & R). eapply SH. eapply o_find; eauto.
    + right. split; [lens; lia|]. destruct (find_undefined (strs s v) (strs s w) a b Lv ltac:(lia) B) as (u & E). cbn [xstep]. rewrite E. cbn [xemit]. eauto.
  - destruct (Z_lt_dec (len (strs s v)) a) as [G|G]; [left; eapply SH; apply o_contains_beyond; auto|].
    assert (dec: {0 <= a <= Z.min b (len (strs s v))} + {a < 0 \/ b < a}) by (destruct (Z_lt_dec a 0), (Z_lt_dec b a); (left; lia) || (right; lia)).
    destruct dec as [B|B].
    + left. destruct (contains_spec (strs s v) (strs s w) a b Lv B) as (r & _ & R). eapply SH. eapply o_contains; eauto.
    + right. split; [lens; lia|]. destruct (find_undefined (strs s v) (strs s w) a b Lv ltac:(lia) B) as (u & E). cbn [xstep]. unfold str_contains. rewrite E. cbn [bind xemit]. eauto.
  - left. destruct (count_all (strs s v) (strs s w) Lv) as (P & _). destruct (strs s w) as [|ch t] eqn:E.
    + eapply SH. apply o_count_empty. auto.
    + destruct P as (n & _ & (js & J & N) & M); [discriminate|]. eapply SH. rewrite <- E in *. apply (o_count s v w js); [congruence|auto|]. rewrite N. auto.
  - left. eapply SH. apply o_starts. exact (starts_spec _ _).
  - left. eapply SH. apply o_ends. exact (ends_spec _ _).
  - left. eapply SH. apply o_less. exact (less_says _ _).
  - left. eapply SH. apply o_equal. exact (str_eqb_spec _ _).
  - left. assert (dec: {2 <= base <= 36} + {~ (2 <= base <= 36)}) by (destruct (Z_le_dec 2 base), (Z_le_dec base 36); (left; lia) || (right; lia)).
    destruct dec as [B|B]; [|eapply TH; constructor; auto].
    destruct (lit_dec base (strs s v) B Sv) as [(z & I)|N].
    + eapply SH. eapply o_integer; eauto.
    + eapply TH. apply t_literal; auto.
Qed.

Theorem step_exact : forall c s s' ev, short s -> xint c -> step c s = Ok (s', ev) <-> astep c s s' ev.
Proof.
  intros c s s' ev S A. split; [|apply complete; auto]. intros E. destruct (sound c s S A) as [(s2 & ev2 & P)|(_ & u & P)]; [|congruence].
  pose proof (complete _ _ _ _ S A P) as Q. congruence.
Qed.

Theorem undefined_exact : forall c s, short s -> xint c -> (exists u, step c s = UB u) <-> undefined c s.
Proof.
  intros c s S A. split.
  - intros (u & E). destruct (sound c s S A) as [(s2 & ev2 & P)|(U & _)]; auto. pose proof (complete _ _ _ _ S A P). congruence.
  - intros U. pose proof (short_le s) as L. specialize (L) . destruct c; cbn [undefined] in U; lens; try contradiction; cbn [xstep]; try (pose proof (short_str _ v S) as Sv; pose proof (short_le _ v S) as Lv).
    + subst. cbn [str_move const_write bind]. rewrite Nat.eqb_refl. eauto.
    + destruct (str_times_spec (strs s v) n Lv) as (_ & _ & P). rewrite P by lia. cbn [xlet]. eauto.
    + destruct U as (-> & U). rewrite str_shr_min by auto. cbn [xlet]. eauto.
    + destruct (str_erase_spec (strs s v) a b Sv) as (_ & _ & P). rewrite P by lia. cbn [xlet]. eauto.
    + destruct U as (N & B1 & B2 & F). destruct (str_slice_spec (strs s v) a b st Sv) as (_ & _ & P). cbv zeta in P.
      destruct (P N B1 B2) as [(G & _)|(_ & ->)]; [contradiction|]. cbn [xlet]. eauto.
    + destruct (find_undefined (strs s v) (strs s w) a b Lv (proj1 U) (proj2 U)) as (u & ->). cbn [xemit]. eauto.
    + destruct (find_undefined (strs s v) (strs s w) a b Lv (proj1 U) (proj2 U)) as (u & E). unfold str_contains. rewrite E. cbn [bind xemit]. eauto.
Qed.

Theorem run_complete : forall prog s s' ev, Forall xint prog -> arun prog s s' ev -> xrun ConstBenign q prog s = Ok (s', ev).
Proof.
  intros prog s s' ev A R. revert A. induction R as [s|c rest s s1 s2 ev1 ev2 S C R IH]; intros A; cbn [xrun]; auto.
  inversion A; subst. rewrite (complete _ _ _ _ S H1 C). cbn [bind fst snd]. rewrite IH by auto. auto.
Qed.

Lemma set_short : forall s u r, short s -> short (set_str s u r) \/ ~ short (set_str s u r).
Proof.
  intros s u r S. destruct (Z_lt_dec (len r) INT_MAX) as [L|L].
  - left. split; [|apply S]. intros w. cbn [strs set_str]. destruct (Nat.eqb w u); [exact L|apply S].
  - right. intros (X & _). specialize (X u). cbn [strs set_str] in X. rewrite Nat.eqb_refl in X. contradiction.
Qed.
Lemma step_short : forall c s s' ev, short s -> xint c -> astep c s s' ev -> short s' \/ ~ short s'.
Proof.
  intros c s s' ev S A H.
  pose proof (fun u r => set_short s u r S) as K.
  assert (M: forall u v, short (set_str (set_str s v []) u (strs s v))).
  { intros u v. split; [|apply S]. intros w. cbn [strs set_str]. destruct (Nat.eqb w u); [apply S|]. destruct (Nat.eqb w v); [cbn; unfold INT_MAX; lia|apply S]. }
  assert (R: forall l r, len r <= INT_MAX -> Forall (fun t => len t < INT_MAX) r -> short (set_row s l r)).
  { intros l r L F. split; [apply S|]. intros w. cbn [rows set_row]. destruct (Nat.eqb w l); [auto|apply S]. }
  assert (PL: forall p t ps, pieces p t ps -> Forall (fun x => len x <= len t) ps).
  { intros p t ps P. induction P as [t N|a b ps N P IH].
    - constructor; auto. lia.
    - constructor; [rewrite !len_app; pose proof (len_nonneg _ p); pose proof (len_nonneg _ b); lia|].
      eapply Forall_impl; [|exact IH]. cbn beta. intros x X. rewrite !len_app. pose proof (len_nonneg _ p). pose proof (len_nonneg _ a). lia. }
  destruct H; auto.
  - left. pose proof (pieces_count _ _ _ H H0). pose proof (short_str s v S). apply R; [lia|].
    eapply Forall_impl; [|eapply PL; exact H0]. cbn beta. intros x X. lia.
  - left. pose proof (pieces_count _ _ _ H H0). pose proof (short_str s v S). set (f := fun t : list ascii => match t with [] => false | _ => true end).
    assert (len (filter f ps) <= len ps) by (clear; induction ps; cbn [filter]; [lia|]; destruct (f a); rewrite ?len_cons; pose proof (len_nonneg _ ps); lia).
    apply R; [lia|]. apply Forall_forall. intros x X. apply filter_In in X. destruct X as (X & _). pose proof (PL _ _ _ H0) as F. rewrite Forall_forall in F. specialize (F x X). cbn beta in F. lia.
  - left. apply R; [rewrite len_app, len_cons, len_nil; lens; lia|]. apply Forall_app. split; [apply S|]. constructor; auto.
Qed.

(** Every program runs to its end, reaches one of the undefined calls, or produces a string of INT_MAX bytes. *)
Theorem run_cases : forall prog s, short s -> Forall xint prog ->
  (exists s' ev, arun prog s s' ev /\ xrun ConstBenign q prog s = Ok (s', ev)) \/
  (exists before c after s1 ev1, prog = before ++ c :: after /\ arun before s s1 ev1 /\ short s1 /\ undefined c s1 /\
     exists u, xrun ConstBenign q prog s = UB u) \/
  (exists before after s1 ev1, prog = before ++ after /\ after <> [] /\ arun before s s1 ev1 /\ ~ short s1).
Proof.
  induction prog as [|c prog IH]; intros s S A.
  - left. exists s, []. split; [constructor|auto].
  - inversion A as [|c' p' A1 A2]; subst. destruct (sound c s S A1) as [(s1 & ev1 & P)|(U & u & P)].
    + pose proof (complete _ _ _ _ S A1 P) as E. destruct (step_short c s s1 ev1 S A1 P) as [S1|S1].
      * destruct (IH s1 S1 A2) as [(s2 & ev2 & R & X)|[(before & c2 & after & s2 & ev2 & -> & R & S2 & U & u & X)|(before & after & s2 & ev2 & -> & N & R & X)]].
        -- left. do 2 eexists. split; [econstructor; eauto|]. cbn [xrun]. rewrite E. cbn [bind fst snd]. rewrite X. auto.
        -- right. left. exists (c :: before), c2, after, s2. eexists. split; [auto|]. split; [econstructor; eauto|]. split; [auto|]. split; [auto|].
           exists u. cbn [xrun]. rewrite E. cbn [bind fst snd]. rewrite X. auto.
        -- right. right. exists (c :: before), after, s2. eexists. split; [auto|]. split; [auto|]. split; [econstructor; eauto|auto].
      * destruct prog as [|c2 prog].
        -- left. exists s1, (ev1 ++ []). split; [econstructor; eauto; constructor|]. cbn [xrun]. rewrite E. auto.
        -- right. right. exists [c], (c2 :: prog), s1, (ev1 ++ []). split; [auto|]. split; [discriminate|]. split; [econstructor; eauto; constructor|auto].
    + right. left. exists [], c, prog, s, []. split; [auto|]. split; [constructor|]. split; [auto|]. split; [auto|].
      exists u. cbn [xrun]. rewrite P. auto.
Qed.

(** Without writes to Str objects the strict reading of const makes no difference. *)
Theorem run_const : forall prog s, Forall (fun c => ~ writes c) prog -> xrun ConstUB q prog s = xrun ConstBenign q prog s.
Proof.
  induction prog as [|c prog IH]; intros s N; auto. inversion N; subst. cbn [xrun].
  assert (xstep ConstUB q c s = step c s) as -> by (destruct c; auto; exfalso; apply H1; exact I).
  destruct (step c s) as [(s1, ev1)|?|?|]; auto. cbn [bind fst snd]. rewrite IH; auto.
Qed.

(** With one it is the write that is undefined. *)
Theorem write_undefined : forall c s, writes c -> xstep ConstUB q c s = UB ConstWrite.
Proof. intros c s W. destruct c; try contradiction; auto. Qed.

(** The abstract run is unique. *)
Theorem arun_unique : forall prog s s' ev s'' ev', Forall xint prog -> arun prog s s' ev -> arun prog s s'' ev' -> s' = s'' /\ ev = ev'.
Proof.
  intros prog s s' ev s'' ev' A R R'. pose proof (run_complete _ _ _ _ A R). pose proof (run_complete _ _ _ _ A R'). split; congruence.
Qed.
End Prog.

Lemma some_undefined : exists c s, short s /\ xint c /\ forall q, exists u, xstep ConstBenign q c s = UB u.
Proof.
  exists (XErase 0%nat 0%nat 2 1), (XStore (fun _ => ["a"%char; "b"%char]) (fun _ => [])).
  assert (short (XStore (fun _ => ["a"%char; "b"%char]) (fun _ => []))) as S.
  { split; cbn; [intros; vm_compute; reflexivity|]. intros. split; [vm_compute; discriminate|constructor]. }
  assert (xint (XErase 0%nat 0%nat 2 1)) as A by (cbn; unfold INT_MIN, INT_MAX; lia).
  split; [exact S|]. split; [exact A|]. intros q. apply undefined_exact; [exact S|exact A|]. cbn. lia.
Qed.

(** An example: the words of a line, counted, joined by dashes, one of them printed backwards; a bad index is reported. *)
Definition word_program : list xstmt :=
  [XInit 0 (chars "  the quick fox "%string); XInit 1 (chars " "%string); XInit 2 (chars "-"%string); XStrip 0 0 (-1); XSplit 0 0 1 true; XRowSize 0;
   XJoin 3 2 0; XPrint 3; XRowAt 4 0 (-1); XReverse 4 4; XPrint 4; XRowAt 4 0 3; XCount 3 2; XFind 3 4 0 INT_MAX;
   XInit 5 (chars "0{}"%string); XFormat 5 5 [XIntArg 42]; XInteger 5 10; XLess 3 4].
