(** Proofs about pointers and iterators into Strs. *)
From Coq Require Import ZArith List Bool Ascii Lia.
From Verif Require Import Outcome IntModel StreamModel ListModel ListSpec ListFacts ListMore StrModel StrSpec StrFacts StrMore StrProgModel StrProgSpec StrProg
  StrPtrModel StrPtrSpec.
Import ListNotations.
Open Scope Z_scope.

(** ** The characters that can be read *)
Lemma knull_byte : byte knull = 0.
Proof. reflexivity. Qed.
Lemma byte_null : forall c, byte c = 0 -> c = knull.
Proof. intros c E. apply byte_inj. rewrite E. reflexivity. Qed.

Lemma spots_len : forall k t, length (spots k t) = last k t.
Proof. intros [] t; cbn [spots last]; auto. rewrite app_length. cbn [length]. lia. Qed.

Lemma reads_spots : forall k t n c, reads k t n c <-> nth_error (spots k t) n = Some c.
Proof.
  intros k t n c. unfold reads. destruct k; cbn [spots]; [|split; [intros [H|(H & _)]; [auto|discriminate]|auto]].
  split.
  - intros [H|(_ & -> & B)].
    + rewrite nth_error_app1; auto. apply nth_error_Some. congruence.
    + rewrite nth_error_app2, Nat.sub_diag by lia. cbn. rewrite (byte_null c); auto.
  - intros H. destruct (Nat.lt_ge_cases n (length t)) as [L|L].
    + rewrite nth_error_app1 in H by auto. auto.
    + rewrite nth_error_app2 in H by auto. right. destruct (n - length t)%nat as [|m] eqn:E; cbn in H; [|destruct m; discriminate].
      split; auto. split; [lia|]. injection H as <-. reflexivity.
Qed.

Lemma stretch_spots : forall k t a b m, stretch k t a b m <->
  (a <= b)%nat /\ (b <= last k t)%nat /\ m = firstn (b - a) (skipn a (spots k t)).
Proof.
  intros k t a b m. split.
  - intros [(x & y & -> & <- & L)|[(-> & E & x & m' & c & -> & B & -> & <-)|(-> & -> & -> & ->)]].
    + assert (length x + length m <= length (x ++ m ++ y))%nat by (rewrite !app_length; lia).
      assert (exists z, spots k (x ++ m ++ y) = x ++ m ++ z) as (z & ->).
      { destruct k; cbn [spots]; [exists (y ++ [knull])|exists y]; rewrite <- ?app_assoc; auto. }
      split; [lia|]. split; [destruct k; cbn [last]; lia|].
      rewrite skipn_app, skipn_all, Nat.sub_diag. cbn [skipn app]. replace (b - length x)%nat with (length m) by lia.
      rewrite firstn_app, firstn_all, Nat.sub_diag, firstn_O, app_nil_r. auto.
    + subst b. rewrite app_length. split; [lia|]. split; [cbn [last]; rewrite app_length; lia|]. cbn [spots]. rewrite <- app_assoc.
      rewrite skipn_app, skipn_all, Nat.sub_diag. cbn [skipn app]. rewrite firstn_all2 by (rewrite app_length; cbn [length]; lia).
      rewrite (byte_null c); auto.
    + rewrite Nat.sub_diag. cbn [firstn last]. repeat split; auto.
  - intros (L & B & ->). destruct (Nat.le_gt_cases b (length t)) as [Lb|Lb].
    + left. exists (firstn a t), (skipn b t).
      assert (firstn (b - a) (skipn a (spots k t)) = firstn (b - a) (skipn a t)) as ->.
      { destruct k; cbn [spots]; auto. rewrite skipn_app, firstn_app, skipn_length.
        replace (b - a - (length t - a))%nat with 0%nat by lia. rewrite firstn_O, app_nil_r. auto. }
      rewrite !firstn_length, skipn_length. split; [|lia].
      rewrite <- (firstn_skipn a t) at 1. f_equal. rewrite <- (firstn_skipn (b - a) (skipn a t)) at 1. f_equal.
      rewrite skipn_skipn. f_equal. lia.
    + right. destruct k; cbn [last] in B; [|lia]. assert (b = S (length t)) as -> by lia.
      destruct (Nat.eq_dec a (S (length t))) as [->|N].
      * right. rewrite Nat.sub_diag. auto.
      * left. split; auto. split; auto. exists (firstn a t), (skipn a t), knull. rewrite firstn_skipn, firstn_length. cbn [spots].
        repeat split; try lia. rewrite skipn_app. replace (a - length t)%nat with 0%nat by lia. cbn [skipn].
        rewrite firstn_all2; auto. rewrite app_length, skipn_length. cbn [length]. lia.
Qed.

Lemma c_str_null : forall t, c_str (t ++ [knull]) = c_str t.
Proof.
  intros t. apply (until_null_unique t); [|apply until_null_c_str].
  pose proof (until_null_c_str (t ++ [knull])) as (F & H). split; auto.
  destruct H as [H|(c & rest & B & H)].
  - exfalso. rewrite <- H in F. apply Forall_app in F. destruct F as (_ & F). inversion F; subst. apply H2. reflexivity.
  - destruct (exists_last (l := c :: rest)) as (l & z & E); [discriminate|]. rewrite E, app_assoc in H. apply app_inj_tail in H. destruct H as (Et & _).
    destruct l as [|c' l]; [left; rewrite Et at 1; apply app_nil_r|]. right. injection E as <- _. eauto.
Qed.

Lemma chars_from : forall t n, (n <= length t)%nat -> c_str (skipn n (spots Ptr t)) = c_str (skipn n t).
Proof.
  intros t n L. cbn [spots]. rewrite skipn_app. replace (n - length t)%nat with 0%nat by lia. cbn [skipn]. apply c_str_null.
Qed.

(** ** Which pointers are lost *)
Lemma threw_quiet : forall c s s' ev w, astep c s s' ev -> replaced c w = true -> (kthrew ev = false <-> quiet ev).
Proof.
  intros c s s' ev w H R. unfold quiet. destruct H; cbn [kthrew]; try (split; [intros _ e; discriminate|auto]).
  - split; [discriminate|]. intros Q. exfalso. eapply Q. reflexivity.
  - destruct H; discriminate.
Qed.

Lemma replaced_loses : forall c s s' ev w, astep c s s' ev -> replaced c w && negb (kthrew ev) = true <-> loses c w /\ quiet ev.
Proof.
  intros c s s' ev w H. split.
  - intros E. apply andb_true_iff in E. destruct E as (R & T). apply negb_true_iff in T. pose proof (threw_quiet _ _ _ _ _ H R) as Q. split; [|tauto].
    destruct H; cbn [kthrew] in T; try discriminate.
    + assert (w = u) as -> by (destruct H; cbn [replaced] in R; apply Nat.eqb_eq; auto). econstructor; eauto.
    + cbn [replaced] in R. apply orb_true_iff in R. destruct R as [R|R]; apply Nat.eqb_eq in R; subst; constructor.
    + cbn [replaced] in R. apply orb_true_iff in R. destruct R as [R|R]; apply Nat.eqb_eq in R; subst; constructor.
    + destruct H; discriminate.
  - intros (L & Q). assert (replaced c w = true) as R.
    { destruct L; cbn [replaced]; rewrite ?Nat.eqb_refl, ?orb_true_r; auto. destruct H0; cbn [replaced]; apply Nat.eqb_refl. }
    rewrite R. apply (threw_quiet _ _ _ _ _ H R) in Q. rewrite Q. auto.
Qed.

Lemma text_changed : forall c s s' ev w, astep c s s' ev -> ~ (loses c w /\ quiet ev) -> strs s' w = strs s w.
Proof.
  intros c s s' ev w H N. destruct H; auto; try (cbn [set_row strs]; reflexivity).
  - unfold set_str, strs. destruct (Nat.eqb_spec w u) as [->|D]; auto. destruct N. split; [econstructor; eauto|intros e; discriminate].
  - unfold set_str, strs. destruct (Nat.eqb_spec w u) as [->|D]; [destruct N; split; [constructor|intros e; discriminate]|].
    destruct (Nat.eqb_spec w v) as [->|D']; [destruct N; split; [constructor|intros e; discriminate]|auto].
  - unfold set_str, strs. destruct (Nat.eqb_spec w u) as [->|D]; [destruct N; split; [constructor|intros e; discriminate]|].
    destruct (Nat.eqb_spec w v) as [->|D']; [destruct N; split; [constructor|intros e; discriminate]|auto].
Qed.

Lemma position_from : forall m z n, position m z = Some n -> - m <= z /\ from_back m z = Z.of_nat n.
Proof.
  intros m z n H. unfold position in H. unfold from_back.
  destruct (Z.leb_spec 0 z), (Z.ltb_spec z m), (Z.leb_spec (- m) z), (Z.ltb_spec z 0); cbn [andb] in H; try discriminate; injection H as <-; lia.
Qed.

Section Ptrs.
Variable q : policy.
Implicit Types (t : kstate) (s : xstore) (I : kcurs).
Notation step := (k_step ConstBenign q).

Lemma replaced_stands : forall t s I s' I' (b : xvar -> bool) (L : xvar -> Prop), kstands t s I ->
  (forall v, b v = true <-> L v) -> (forall v, ~ L v -> strs s' v = strs s v) -> kept L I I' ->
  kstands (KState s' (fun w => if b w then S (kg t w) else kg t w) (kp t)) s' I'.
Proof.
  intros t s I s' I' b L (X & P) B F K. split; auto. intros k i. specialize (P k i). specialize (K k i). cbn [kp kg].
  destruct (I k i) as [|v n|].
  - rewrite K. auto.
  - destruct P as (P & Ln). destruct K as [(Lv & ->)|(Lv & ->)].
    + exists v, (kg t v), n. split; auto. apply B in Lv. rewrite Lv. lia.
    + destruct (b v) eqn:E; [apply B in E; contradiction|]. rewrite F by auto. auto.
  - rewrite K. destruct P as (v & g & n & P & Lg). exists v, g, n. split; auto. destruct (b v); lia.
Qed.

Lemma kept_ex : forall (b : xvar -> bool) (L : xvar -> Prop) I, (forall v, b v = true <-> L v) -> exists I', kept L I I'.
Proof.
  intros b L I B. exists (fun k i => match I k i with PAt v n => if b v then PDead else PAt v n | x => x end).
  intros k i. destruct (I k i) as [|v n|]; auto. destruct (b v) eqn:E; [left|right]; split; auto.
  - apply B. auto.
  - intros N. apply B in N. congruence.
Qed.

Lemma kdo_ok : forall c t s I s' I' ev, kstands t s I -> short s -> xint c -> astep c s s' ev -> kept (fun v => loses c v /\ quiet ev) I I' ->
  exists t', k_do ConstBenign q c t = Ok (t', ev) /\ kstands t' s' I'.
Proof.
  intros c t s I s' I' ev St Sh A H K. unfold k_do. destruct St as (X & P) eqn:E. rewrite X, (complete q _ _ _ _ Sh A H). cbn [bind fst snd].
  eexists. split; eauto. eapply replaced_stands; eauto.
  - intros v. cbv beta. eapply replaced_loses; eauto.
  - intros v N. cbv beta in N. eapply text_changed; eauto.
Qed.

Lemma kput_stands : forall t s I k i v n I', kstands t s I -> (n <= last k (strs s v))%nat -> kput I k i (PAt v n) I' ->
  kstands (k_put k i v n t) s I'.
Proof.
  intros t s I k i v n I' (X & P) L (E & F). split; auto. intros k' j. unfold k_put. cbn [kp kg].
  destruct (match k, k' with Ptr, Ptr | Itr, Itr => true | _, _ => false end) eqn:Ek; cbn [andb].
  - assert (k' = k) as -> by (destruct k, k'; auto; discriminate). destruct (Nat.eqb_spec j i) as [->|N].
    + rewrite E. auto.
    + rewrite F by auto. apply P.
  - rewrite F by (left; intros ->; destruct k; discriminate). apply P.
Qed.

Lemma kput_ex : forall I k i x, exists I', kput I k i x I'.
Proof.
  intros I k i x. assert (forall a b : pkind, {a = b} + {a <> b}) as D by decide equality.
  exists (fun k' j => if D k' k then if Nat.eq_dec j i then x else I k' j else I k' j). split.
  - destruct (D k k); [|contradiction]. destruct (Nat.eq_dec i i); [auto|contradiction].
  - intros k' j N. destruct (D k' k); auto. destruct (Nat.eq_dec j i); auto. tauto.
Qed.

Lemma kat : forall t s I k i v n, kstands t s I -> I k i = PAt v n -> k_at t k i = Ok (v, n) /\ (n <= last k (strs s v))%nat.
Proof.
  intros t s I k i v n (_ & P) E. specialize (P k i). rewrite E in P. destruct P as (P & L). unfold k_at. rewrite P, Nat.eqb_refl. auto.
Qed.
Lemma klost : forall t s I k i, kstands t s I -> (forall v n, I k i <> PAt v n) -> k_at t k i = UB BadDeref.
Proof.
  intros t s I k i (_ & P) N. specialize (P k i). unfold k_at. destruct (I k i) as [|v n|].
  - rewrite P. auto.
  - destruct (N v n). auto.
  - destruct P as (v & g & n & -> & L). destruct (Nat.eqb_spec g (kg t v)); [lia|auto].
Qed.
Lemma kcur_dec : forall I k i, (exists v n, I k i = PAt v n) \/ (forall v n, I k i <> PAt v n).
Proof. intros I k i. destruct (I k i); [right; discriminate|left; eauto|right; discriminate]. Qed.

Lemma k_char_ok : forall t s I k v n c, kstands t s I -> reads k (strs s v) n c -> k_char t k v n = Ok c.
Proof. intros t s I k v n c (X & _) R. apply reads_spots in R. unfold k_char, k_spots. rewrite X, R. auto. Qed.

Lemma between_ok : forall t s I k i j v a b m, kstands t s I -> I k i = PAt v a -> I k j = PAt v b -> stretch k (strs s v) a b m ->
  k_between t k i j = Ok m.
Proof.
  intros t s I k i j v a b m St Ei Ej H. unfold k_between. destruct (kat _ _ _ _ _ _ _ St Ei) as (-> & _). destruct (kat _ _ _ _ _ _ _ St Ej) as (-> & _).
  cbn [bind fst snd]. apply stretch_spots in H. destruct H as (L & _ & ->). rewrite Nat.eqb_refl. cbn [andb].
  destruct (Nat.leb_spec a b); [|lia]. unfold k_spots. destruct St as (-> & _). auto.
Qed.

Lemma chars_ok : forall t s I i v a b r, kstands t s I -> I Ptr i = PAt v (length a) -> strs s v = a ++ b -> until_null b r ->
  exists x, k_chars t i = Ok x /\ str_of_chars x = r.
Proof.
  intros t s I i v a b r St Ei E U. unfold k_chars. destruct (kat _ _ _ _ _ _ _ St Ei) as (-> & _). cbn [bind fst snd].
  unfold k_spots. destruct St as (-> & _). rewrite E, app_length. destruct (Nat.leb_spec (length a) (length a + length b)); [|lia].
  eexists. split; [reflexivity|]. unfold str_of_chars. rewrite chars_from by (rewrite app_length; lia).
  rewrite skipn_app, skipn_all, Nat.sub_diag. cbn [skipn app]. eapply until_null_unique; eauto. apply until_null_c_str.
Qed.

Lemma kept_eq_init : forall c u s r I I', computes s c u r -> (forall w, loses c w <-> u = w) -> kept (eq u) I I' -> kept (fun v => loses c v /\ quiet []) I I'.
Proof.
  intros c u s r I I' C L K k i. specialize (K k i). destruct (I k i) as [|v n|]; auto.
  destruct K as [(E & K)|(E & K)]; [left|right]; split; auto.
  - split; [apply L; auto|intros e; discriminate].
  - intros (N & _). apply L in N. auto.
Qed.
Lemma loses_init : forall u x w, loses (XInit u x) w <-> u = w.
Proof. intros u x w. split; [intros H; inversion H; subst; inversion H0; auto|intros <-]. econstructor. constructor. apply until_null_c_str. Unshelve. exact (kx kstate0). Qed.
Lemma loses_init_std : forall u x w, loses (XInitStd u x) w <-> u = w.
Proof. intros u x w. split; [intros H; inversion H; subst; inversion H0; auto|intros <-]. econstructor. constructor. Unshelve. exact (kx kstate0). Qed.

Lemma kinit_ok : forall u x t s I I', kstands t s I -> short s -> kept (eq u) I I' ->
  exists t', k_do ConstBenign q (XInit u x) t = Ok (t', []) /\ kstands t' (set_str s u (str_of_chars x)) I'.
Proof.
  intros u x t s I I' St Sh K. eapply kdo_ok; eauto; [exact Logic.I|apply a_let; constructor; apply until_null_c_str|].
  eapply (kept_eq_init _ u s); eauto; [constructor; apply until_null_c_str|apply loses_init].
Qed.
Lemma kinit_std_ok : forall u x t s I I', kstands t s I -> short s -> kept (eq u) I I' ->
  exists t', k_do ConstBenign q (XInitStd u x) t = Ok (t', []) /\ kstands t' (set_str s u x) I'.
Proof.
  intros u x t s I I' St Sh K. eapply kdo_ok; eauto; [exact Logic.I|apply a_let; constructor|].
  eapply (kept_eq_init _ u s); eauto; [constructor|apply loses_init_std].
Qed.

(** ** One statement *)
Theorem kstep_ok : forall c t s I s' I' ev, kstands t s I -> short s -> kint c -> kastep c s I s' I' ev ->
  exists t', step c t = Ok (t', ev) /\ kstands t' s' I'.
Proof.
  intros c t s I s' I' ev St Sh A H. pose proof St as (X & _). destruct H; cbn [k_step kint] in *.
  - eapply kdo_ok; eauto.
  - eexists. split; [reflexivity|]. eapply kput_stands; eauto; cbn [last]; lia.
  - rewrite X. pose proof (str_at_spec (strs s v) z (short_le _ _ Sh)) as P. unfold len in P. rewrite H in P. destruct P as (y & P & ->).
    pose proof (position_from _ _ _ H) as (B & E). rewrite from_end_ok by (unfold len; try apply short_le; auto; try lia). unfold len. cbn [bind]. rewrite E, Nat2Z.id.
    eexists. split; [reflexivity|]. eapply kput_stands; eauto. cbn [last].
    assert (n < length (strs s v))%nat by (apply nth_error_Some; congruence). lia.
  - rewrite X. pose proof (str_at_spec (strs s v) z (short_le _ _ Sh)) as P. unfold len in P. rewrite H in P. rewrite P. eauto.
  - eexists. split; [reflexivity|]. eapply kput_stands; eauto; cbn [last]; lia.
  - rewrite X. eexists. split; [reflexivity|]. eapply kput_stands; eauto; cbn [last]; lia.
  - destruct (kat _ _ _ _ _ _ _ St H) as (-> & L). cbn [bind fst snd]. eexists. split; [reflexivity|]. eapply kput_stands; eauto.
  - destruct (kat _ _ _ _ _ _ _ St H) as (-> & L). cbn [bind fst snd]. unfold len, k_spots. rewrite spots_len, X.
    destruct (Z.leb_spec 0 (Z.of_nat n + z)); [|lia]. destruct (Z.leb_spec (Z.of_nat n + z) (Z.of_nat (last k (strs s v)))); [|lia]. cbn [andb].
    eexists. split; [reflexivity|]. replace (Z.to_nat (Z.of_nat n + z)) with m by lia. eapply kput_stands; eauto.
  - destruct (kat _ _ _ _ _ _ _ St H) as (-> & L). cbn [bind fst snd]. erewrite k_char_ok by eauto. cbn [bind]. eauto.
  - destruct (kat _ _ _ _ _ _ _ St H) as (-> & L). cbn [bind fst snd]. erewrite k_char_ok by eauto. cbn [bind]. eauto.
  - destruct (kat _ _ _ _ _ _ _ St H) as (-> & L). destruct (kat _ _ _ _ _ _ _ St H0) as (-> & L0). cbn [bind fst snd]. rewrite Nat.eqb_refl. eauto.
  - destruct (chars_ok _ _ _ _ _ _ _ _ St H H0 H1) as (x & -> & <-). cbn [bind]. apply (kinit_ok u x t s I I'); auto.
  - destruct (chars_ok _ _ _ _ _ _ _ _ St H H0 H1) as (x & -> & <-). cbn [bind str_move const_write fst snd].
    eexists. split; [reflexivity|]. rewrite X. eapply (replaced_stands t s I _ _ (fun w => Nat.eqb w u)); eauto.
    + intros w. rewrite Nat.eqb_eq. intuition.
    + intros w N. cbn [set_str strs]. destruct (Nat.eqb_spec w u); [subst; contradiction|auto].
  - erewrite between_ok by eauto. cbn [bind]. apply (kinit_std_ok u m t s I I'); auto.
  - erewrite between_ok by eauto. cbn [bind]. apply (kinit_std_ok u (rev m) t s I I'); auto.
Qed.

(** ** The undefined statements *)
Lemma pair_dec : forall I k i j,
  (exists v n m, I k i = PAt v n /\ I k j = PAt v m) \/
  ((forall v n m, I k i = PAt v n -> I k j <> PAt v m) /\
   ((forall v n, I k i <> PAt v n) \/ (forall v n, I k j <> PAt v n) \/ exists v w n m, v <> w /\ I k i = PAt v n /\ I k j = PAt w m)).
Proof.
  intros I k i j. destruct (kcur_dec I k i) as [(v & n & Ei)|N].
  - destruct (kcur_dec I k j) as [(w & m & Ej)|N].
    + destruct (Nat.eq_dec v w) as [->|D]; [left; eauto|]. right. split; [intros; congruence|]. right. right. exists v, w, n, m. auto.
    + right. split; [intros; auto|auto].
  - right. split; [intros v n m E; destruct (N _ _ E)|auto].
Qed.

Lemma between_cases : forall t s I k i j, kstands t s I ->
  (exists v n m r, I k i = PAt v n /\ I k j = PAt v m /\ stretch k (strs s v) n m r) \/
  ((forall v n m, I k i = PAt v n -> I k j = PAt v m -> (m < n)%nat) /\ exists u, k_between t k i j = UB u).
Proof.
  intros t s I k i j St. unfold k_between. destruct (pair_dec I k i j) as [(v & n & m & Ei & Ej)|(R & N)].
  - destruct (kat _ _ _ _ _ _ _ St Ei) as (-> & Li). destruct (kat _ _ _ _ _ _ _ St Ej) as (-> & Lj). cbn [bind fst snd]. rewrite Nat.eqb_refl. cbn [andb].
    destruct (Nat.leb_spec n m) as [L|L].
    + left. eexists v, n, m, _. split; auto. split; auto. apply stretch_spots. split; auto.
    + right. split; [|eauto]. intros v' n' m' E E'. congruence.
  - right. split; [intros v n m E E'; destruct (R _ _ m E); auto|].
    destruct N as [N|[N|(v & w & n & m & D & Ei & Ej)]].
    + rewrite (klost _ _ _ _ _ St N). cbn [bind]. eauto.
    + destruct (kcur_dec I k i) as [(v & n & Ei)|N']; [|rewrite (klost _ _ _ _ _ St N'); cbn [bind]; eauto].
      destruct (kat _ _ _ _ _ _ _ St Ei) as (-> & _). rewrite (klost _ _ _ _ _ St N). cbn [bind]. eauto.
    + destruct (kat _ _ _ _ _ _ _ St Ei) as (-> & _). destruct (kat _ _ _ _ _ _ _ St Ej) as (-> & _). cbn [bind fst snd].
      destruct (Nat.eqb_spec v w); [contradiction|]. cbn [andb]. eauto.
Qed.

Theorem kstep_cases : forall c t s I, kstands t s I -> short s -> kint c ->
  (exists s' I' ev, kastep c s I s' I' ev) \/ (krisk c s I /\ exists u, step c t = UB u).
Proof.
  intros c t s I St Sh A. pose proof St as (X & _). destruct c; cbn [krisk k_step kint] in *.
  - destruct (sound q c s Sh A) as [(s' & ev & H)|(U & u & H)].
    + left. destruct (kept_ex (fun w => replaced c w && negb (kthrew ev)) (fun v => loses c v /\ quiet ev) I) as (I' & K).
      { intros v. eapply replaced_loses; eauto. }
      exists s', I', ev. constructor; auto.
    + right. split; auto. exists u. unfold k_do. rewrite X, H. auto.
  - left. destruct (kput_ex I Ptr i (PAt v 0)) as (I' & P). eexists _, _, _. eapply k_data; eauto.
  - left. destruct (position (num (strs s v)) n) as [m|] eqn:E.
    + destruct (kput_ex I Ptr i (PAt v m)) as (I' & P). eexists _, _, _. eapply k_addr; eauto.
    + eexists _, _, _. eapply k_addr_throw; eauto.
  - left. destruct (kput_ex I Itr i (PAt v 0)) as (I' & P). eexists _, _, _. eapply k_begin; eauto.
  - left. destruct (kput_ex I Itr i (PAt v (length (strs s v)))) as (I' & P). eexists _, _, _. eapply StrPtrSpec.k_end; eauto.
  - destruct (kcur_dec I k j) as [(v & n & E)|N].
    + left. destruct (kput_ex I k i (PAt v n)) as (I' & P). eexists _, _, _. eapply k_copy; eauto.
    + right. rewrite (klost _ _ _ _ _ St N). split; [intros (v & n & E); destruct (N _ _ E)|]. cbn [bind]. eauto.
  - destruct (kcur_dec I k i) as [(v & m & E)|N].
    + destruct (kat _ _ _ _ _ _ _ St E) as (Ea & L). destruct (Z.le_gt_cases 0 (Z.of_nat m + n)) as [B|B]; [destruct (Z.le_gt_cases (Z.of_nat m + n) (Z.of_nat (last k (strs s v)))) as [C|C]|].
      * left. destruct (kput_ex I k i (PAt v (Z.to_nat (Z.of_nat m + n)))) as (I' & P). eexists _, _, _.
        eapply (k_add k i n v m (Z.to_nat (Z.of_nat m + n))); eauto; lia.
      * right. split; [intros v' m' E'; rewrite E in E'; injection E' as <- <-; auto|]. rewrite Ea. cbn [bind fst snd]. unfold len, k_spots. rewrite spots_len, X.
        destruct (Z.leb_spec (Z.of_nat m + n) (Z.of_nat (last k (strs s v)))); [lia|]. rewrite andb_false_r. eauto.
      * right. split; [intros v' m' E'; rewrite E in E'; injection E' as <- <-; auto|]. rewrite Ea. cbn [bind fst snd].
        destruct (Z.leb_spec 0 (Z.of_nat m + n)); [lia|]. cbn [andb]. eauto.
    + right. rewrite (klost _ _ _ _ _ St N). split; [intros v m E; destruct (N _ _ E)|]. cbn [bind]. eauto.
  - destruct (kcur_dec I k i) as [(v & m & E)|N].
    + destruct (kat _ _ _ _ _ _ _ St E) as (Ea & L). destruct (nth_error (spots k (strs s v)) m) as [c|] eqn:C.
      * left. eexists _, _, _. eapply k_read; eauto. apply reads_spots. eauto.
      * right. split.
        -- intros v' m' E'; rewrite E in E'; injection E' as <- <-. apply nth_error_None in C. rewrite spots_len in C. lia.
        -- rewrite Ea. cbn [bind fst snd]. unfold k_char, k_spots. rewrite X, C. cbn [bind]. eauto.
    + right. rewrite (klost _ _ _ _ _ St N). split; [intros v m E; destruct (N _ _ E)|]. cbn [bind]. eauto.
  - destruct (kcur_dec I k i) as [(v & m & E)|N].
    + destruct (kat _ _ _ _ _ _ _ St E) as (Ea & L). destruct m as [|m].
      * right. split; [intros v' m' E'; rewrite E in E'; injection E' as <- <-; auto|]. rewrite Ea. cbn [bind fst snd]. eauto.
      * left. destruct (nth_error (spots k (strs s v)) m) as [c|] eqn:C.
        -- eexists _, _, _. eapply k_back; eauto. apply reads_spots. eauto.
        -- apply nth_error_None in C. rewrite spots_len in C. lia.
    + right. rewrite (klost _ _ _ _ _ St N). split; [intros v m E; destruct (N _ _ E)|]. cbn [bind]. eauto.
  - destruct (pair_dec I k i j) as [(v & n & m & Ei & Ej)|(R & N)].
    + left. eexists _, _, _. eapply k_diff; eauto.
    + right. split; auto. destruct N as [N|[N|(v & w & n & m & D & Ei & Ej)]].
      * rewrite (klost _ _ _ _ _ St N). cbn [bind]. eauto.
      * destruct (kcur_dec I k i) as [(v & n & Ei)|N']; [|rewrite (klost _ _ _ _ _ St N'); cbn [bind]; eauto].
        destruct (kat _ _ _ _ _ _ _ St Ei) as (-> & _). rewrite (klost _ _ _ _ _ St N). cbn [bind]. eauto.
      * destruct (kat _ _ _ _ _ _ _ St Ei) as (-> & _). destruct (kat _ _ _ _ _ _ _ St Ej) as (-> & _). cbn [bind fst snd].
        destruct (Nat.eqb_spec v w); [contradiction|]. eauto.
  - destruct (kcur_dec I Ptr i) as [(v & m & E)|N].
    + destruct (kat _ _ _ _ _ _ _ St E) as (Ea & L). cbn [last] in *. destruct (Nat.le_gt_cases m (length (strs s v))) as [C|C].
      * left. destruct (kept_ex (Nat.eqb u) (eq u) I) as (I' & K); [intros w; apply Nat.eqb_eq|]. eexists _, _, _.
        eapply (k_text u i v (firstn m (strs s v)) (skipn m (strs s v))); eauto; [rewrite firstn_length, Nat.min_l by lia; auto|rewrite firstn_skipn; auto|apply until_null_c_str].
      * right. split; [intros v' m' E'; rewrite E in E'; injection E' as <- <-; lia|]. unfold k_chars. rewrite Ea. cbn [bind fst snd]. rewrite X.
        destruct (Nat.leb_spec m (length (strs s v))); [lia|]. cbn [bind]. eauto.
    + right. unfold k_chars. rewrite (klost _ _ _ _ _ St N). split; [intros v m E; destruct (N _ _ E)|]. cbn [bind]. eauto.
  - destruct (kcur_dec I Ptr i) as [(v & m & E)|N].
    + destruct (kat _ _ _ _ _ _ _ St E) as (Ea & L). cbn [last] in *. destruct (Nat.le_gt_cases m (length (strs s v))) as [C|C].
      * left. destruct (kept_ex (Nat.eqb u) (eq u) I) as (I' & K); [intros w; apply Nat.eqb_eq|]. eexists _, _, _.
        eapply (k_assign u i v (firstn m (strs s v)) (skipn m (strs s v))); eauto; [rewrite firstn_length, Nat.min_l by lia; auto|rewrite firstn_skipn; auto|apply until_null_c_str].
      * right. split; [intros v' m' E'; rewrite E in E'; injection E' as <- <-; lia|]. unfold k_chars. rewrite Ea. cbn [bind fst snd]. rewrite X.
        destruct (Nat.leb_spec m (length (strs s v))); [lia|]. cbn [bind]. eauto.
    + right. unfold k_chars. rewrite (klost _ _ _ _ _ St N). split; [intros v m E; destruct (N _ _ E)|]. cbn [bind]. eauto.
  - destruct (between_cases t s I k i j St) as [(v & n & m & r & Ei & Ej & H)|(N & v & H)].
    + left. destruct (kept_ex (Nat.eqb u) (eq u) I) as (I' & K); [intros w; apply Nat.eqb_eq|]. eexists _, _, _. eapply k_range; eauto.
    + right. rewrite H. cbn [bind]. eauto.
  - destruct (between_cases t s I k j i St) as [(v & n & m & r & Ei & Ej & H)|(N & v & H)].
    + left. destruct (kept_ex (Nat.eqb u) (eq u) I) as (I' & K); [intros w; apply Nat.eqb_eq|]. eexists _, _, _. eapply k_rev_range; eauto.
    + right. rewrite H. cbn [bind]. split; eauto.
Qed.

Theorem kstep_risk : forall c t s I, kstands t s I -> short s -> kint c -> (exists u, step c t = UB u) <-> krisk c s I.
Proof.
  intros c t s I St Sh A. destruct (kstep_cases c t s I St Sh A) as [(s' & I' & ev & H)|(R & U)]; [|tauto].
  destruct (kstep_ok _ _ _ _ _ _ _ St Sh A H) as (t' & E & _). split; [intros (u & U); congruence|]. intros R. exfalso.
  destruct H; cbn [krisk kint] in *; try contradiction.
  - apply (undefined_exact q c s Sh A) in R. destruct R as (u & R). rewrite (complete q _ _ _ _ Sh A H) in R. discriminate.
  - apply R. exists v, n. auto.
  - destruct (R _ _ H); lia.
  - apply R in H. apply reads_spots in H0. assert (n < length (spots k (strs s v)))%nat by (apply nth_error_Some; congruence). rewrite spots_len in *. lia.
  - apply R in H. discriminate.
  - eapply R; eauto.
  - apply R in H. cbn [last] in H. rewrite H0, app_length in H. lia.
  - apply R in H. cbn [last] in H. rewrite H0, app_length in H. lia.
  - pose proof (R _ _ _ H H0). apply stretch_spots in H1. lia.
  - pose proof (R _ _ _ H0 H). apply stretch_spots in H1. lia.
Qed.

(** ** Programs *)
Lemma kstep_short : forall c s I s' I' ev, short s -> kint c -> kastep c s I s' I' ev -> short s' \/ ~ short s'.
Proof.
  intros c s I s' I' ev Sh A H. destruct H; cbn [kint] in A; auto; try (apply set_short; auto). eapply step_short; eauto.
Qed.

Theorem krun_complete : forall prog t s I s' I' ev, kstands t s I -> Forall kint prog -> karun prog s I s' I' ev ->
  exists t', k_run ConstBenign q prog t = Ok (t', ev) /\ kstands t' s' I'.
Proof.
  intros prog t s I s' I' ev St A R. revert t St A. induction R as [s I|c rest s I s1 I1 s2 I2 ev1 ev2 Sh H R IH]; intros t St A; cbn [k_run]; eauto.
  inversion A; subst. destruct (kstep_ok _ _ _ _ _ _ _ St Sh H2 H) as (t1 & -> & St1). cbn [bind fst snd].
  destruct (IH _ St1 H3) as (t2 & -> & St2). cbn [bind fst snd]. eauto.
Qed.

Theorem krun_cases : forall prog t s I, kstands t s I -> short s -> Forall kint prog ->
  (exists t' s' I' ev, karun prog s I s' I' ev /\ k_run ConstBenign q prog t = Ok (t', ev) /\ kstands t' s' I') \/
  (exists before c after s1 I1 ev1, prog = before ++ c :: after /\ karun before s I s1 I1 ev1 /\ short s1 /\ krisk c s1 I1 /\
     exists u, k_run ConstBenign q prog t = UB u) \/
  (exists before after s1 I1 ev1, prog = before ++ after /\ after <> [] /\ karun before s I s1 I1 ev1 /\ ~ short s1).
Proof.
  induction prog as [|c prog IH]; intros t s I St Sh A.
  - left. do 4 eexists. split; [constructor|]. split; [reflexivity|auto].
  - inversion A; subst. destruct (kstep_cases c t s I St Sh H1) as [(s1 & I1 & ev1 & H)|(R & u & U)].
    + destruct (kstep_ok _ _ _ _ _ _ _ St Sh H1 H) as (t1 & E & St1).
      destruct (kstep_short c s I s1 I1 ev1 Sh H1 H) as [Sh1|Sh1].
      * destruct (IH t1 s1 I1 St1 Sh1 H2) as [(t2 & s2 & I2 & ev2 & R & E2 & St2)|[(b & c' & a & s2 & I2 & ev2 & -> & R & Sh2 & K & u & U)|(b & a & s2 & I2 & ev2 & -> & N & R & Sh2)]].
        -- left. exists t2, s2, I2, (ev1 ++ ev2). split; [econstructor; eauto|]. cbn [k_run]. rewrite E. cbn [bind fst snd]. rewrite E2. cbn [bind fst snd]. auto.
        -- right. left. exists (c :: b), c', a, s2, I2, (ev1 ++ ev2). split; [auto|]. split; [econstructor; eauto|]. split; auto. split; auto.
           exists u. cbn [k_run]. rewrite E. cbn [bind fst snd]. rewrite U. auto.
        -- right. right. exists (c :: b), a, s2, I2, (ev1 ++ ev2). split; [auto|]. split; auto. split; [econstructor; eauto|auto].
      * destruct prog as [|c' prog].
        -- left. exists t1, s1, I1, (ev1 ++ []). split; [econstructor; eauto; constructor|]. cbn [k_run]. rewrite E. cbn [bind fst snd]. auto.
        -- right. right. exists [c], (c' :: prog), s1, I1, (ev1 ++ []). split; auto. split; [discriminate|]. split; [econstructor; eauto; constructor|auto].
    + right. left. exists [], c, prog, s, I, []. split; auto. split; [constructor|]. split; auto. split; auto. exists u. cbn [k_run]. rewrite U. auto.
Qed.

Theorem krun_const : forall prog t, Forall (fun c => ~ kwrites c) prog -> k_run ConstUB q prog t = k_run ConstBenign q prog t.
Proof.
  induction prog as [|c prog IH]; intros t N; auto. inversion N; subst. cbn [k_run].
  assert (k_step ConstUB q c t = step c t) as ->.
  { destruct c; cbn [kwrites] in H1; try reflexivity; [|contradiction (H1 Logic.I)].
    cbn [k_step]. unfold k_do. assert (xstep ConstUB q c (kx t) = xstep ConstBenign q c (kx t)) as -> by (destruct c; auto; contradiction (H1 Logic.I)). auto. }
  destruct (step c t) as [(t1, ev1)|?|?|]; auto. cbn [bind fst snd]. rewrite IH; auto.
Qed.
Theorem kwrite_undefined : forall c t s I, kstands t s I -> short s -> kint c -> kwrites c -> exists u, k_step ConstUB q c t = UB u.
Proof.
  intros c t s I St Sh A W. destruct c; try contradiction; cbn [k_step kwrites] in *.
  - unfold k_do. rewrite write_undefined by auto. cbn [bind]. eauto.
  - unfold k_chars, k_at. destruct (kp t Ptr i) as [((v & g) & n)|]; cbn [bind]; eauto. destruct (Nat.eqb g (kg t v)); cbn [bind fst snd]; eauto.
    destruct (Nat.leb n (length (strs (kx t) v))); cbn [bind str_move const_write]; eauto.
Qed.
End Ptrs.
