(** Extraction of Ints from a stream. *)
From Coq Require Import ZArith List Bool Ascii Lia.
From Verif Require Import Outcome IntModel IntSpec IntBase IntAddSub IntIO StreamModel Show ShowFacts.
Import ListNotations.
Open Scope Z_scope.

Lemma drop_while_app : forall f a b, forallb f a = true -> drop_while f (a ++ b) = drop_while f b.
Proof.
  induction a; intros b H; simpl in *; auto. apply andb_true_iff in H as (-> & H). auto.
Qed.

Lemma take_while_app : forall f a b, forallb f a = true -> take_while f (a ++ b) = a ++ take_while f b.
Proof.
  induction a; intros b H; simpl in *; auto. apply andb_true_iff in H as (-> & H). f_equal; auto.
Qed.

(** [rest] is empty or starts with a character outside [f]. *)
Definition stops (f : ascii -> bool) (rest : list ascii) : Prop :=
  match rest with [] => True | c :: _ => f c = false end.

Lemma drop_while_stop : forall f r, stops f r -> drop_while f r = r.
Proof. intros f [|c r] H; simpl in *; auto. rewrite H; auto. Qed.
Lemma take_while_stop : forall f r, stops f r -> take_while f r = [].
Proof. intros f [|c r] H; simpl in *; auto. rewrite H; auto. Qed.

Lemma extract_token : forall ws tok rest,
  forallb isspace ws = true -> tok <> [] -> forallb (fun c => negb (isspace c)) tok = true ->
  stops (fun c => negb (isspace c)) rest ->
  extract_string (IStream (ws ++ tok ++ rest) false false) =
    (tok, IStream rest (match rest with [] => true | _ => false end) false).
Proof.
  intros ws tok rest Hw Ht Hn Hr. unfold extract_string. cbn [good eofbit failbit negb andb buf].
  rewrite drop_while_app by auto.
  assert (D: drop_while isspace (tok ++ rest) = tok ++ rest).
  { destruct tok as [|c tok]; [congruence|]. simpl in *. apply andb_true_iff in Hn as (H1 & _).
    destruct (isspace c); [discriminate|auto]. }
  rewrite D. rewrite drop_while_app, drop_while_stop by auto.
  rewrite take_while_app, take_while_stop, app_nil_r by auto.
  destruct tok; [congruence|]. reflexivity.
Qed.

Lemma extract_none : forall s, good s = false \/ forallb isspace (buf s) = true ->
  fst (extract_string s) = [] /\ failbit (snd (extract_string s)) = true.
Proof.
  intros s H. unfold extract_string. destruct (good s) eqn:G; cbn [negb]; auto.
  destruct H as [H|H]; [discriminate|].
  rewrite <- (app_nil_r (buf s)), drop_while_app by auto. simpl. auto.
Qed.

Lemma extract_ok : forall ws tok rest x z,
  forallb isspace ws = true -> tok <> [] -> forallb (fun c => negb (isspace c)) tok = true ->
  stops (fun c => negb (isspace c)) rest -> literal (c_str tok) = Some z ->
  exists y, repr y z /\ int_extract (IStream (ws ++ tok ++ rest) false false) x =
    (Ok tt, (IStream rest (match rest with [] => true | _ => false end) false, y)).
Proof.
  intros ws tok rest x z Hw Ht Hn Hr L. unfold int_extract. rewrite extract_token by auto.
  destruct (int_of_chars_ok _ _ L) as (y & E & R). exists y. rewrite E. auto.
Qed.

Lemma extract_bad : forall ws tok rest x,
  forallb isspace ws = true -> tok <> [] -> forallb (fun c => negb (isspace c)) tok = true ->
  stops (fun c => negb (isspace c)) rest -> literal (c_str tok) = None ->
  int_extract (IStream (ws ++ tok ++ rest) false false) x =
    (Throw WrongIntegerLiteral, (IStream rest (match rest with [] => true | _ => false end) false, x)).
Proof.
  intros ws tok rest x Hw Ht Hn Hr L. unfold int_extract. rewrite extract_token by auto.
  rewrite int_of_chars_bad by auto. auto.
Qed.

Lemma extract_empty : forall s x, good s = false \/ forallb isspace (buf s) = true ->
  exists s', failbit s' = true /\ int_extract s x = (Throw WrongIntegerLiteral, (s', x)).
Proof.
  intros s x H. destruct (extract_none s H) as (E & F). unfold int_extract.
  destruct (extract_string s) as (str, s'). simpl in E, F. subst str.
  exists s'. split; auto.
Qed.

(** Printed Ints contain no white space and no null character. *)
Lemma digit_of_code : forall c, digit_of c <> None -> 48 <= code c <= 57.
Proof.
  intros c H. rewrite digit_of_spec in H. unfold is_digit_char in H.
  destruct (Z.leb_spec 48 (code c)); destruct (Z.leb_spec (code c) 57); simpl in H; try congruence; lia.
Qed.

Lemma usual_plain : forall s c, usual_notation s -> In c s -> 45 <= code c <= 57.
Proof.
  intros s c U I. destruct U as [->|(c0 & ds & E & (d & Hd & _) & F)].
  - destruct I as [<-|[]]. vm_compute. split; discriminate.
  - assert (D: forall c, In c (c0 :: ds) -> 45 <= code c <= 57).
    { intros c1 [->|I1]; [pose proof (digit_of_code c1); rewrite Hd in H; lapply H; [lia|discriminate]|].
      rewrite Forall_forall in F. pose proof (digit_of_code _ (F _ I1)). lia. }
    destruct E as [-> | ->]; auto. destruct I as [<-|I]; auto. vm_compute. split; discriminate.
Qed.

Lemma show_token : forall z, show_int z <> [] /\
  forallb (fun c => negb (isspace c)) (show_int z) = true /\ c_str (show_int z) = show_int z.
Proof.
  intros z. destruct (show_int_spec z) as (L & U). split; [|split].
  - intros E. rewrite E in L. discriminate.
  - apply forallb_forall. intros c I. pose proof (usual_plain _ _ U I). unfold isspace.
    destruct (Z.eqb_spec (code c) 32); destruct (Z.leb_spec 9 (code c)); destruct (Z.leb_spec (code c) 13); simpl; auto; lia.
  - unfold c_str. rewrite <- (app_nil_r (show_int z)) at 1. rewrite take_while_app, app_nil_r; auto.
    apply forallb_forall. intros c I. pose proof (usual_plain _ _ U I).
    destruct (Z.eqb_spec (code c) 0); auto; lia.
Qed.

(** Text consisting of the decimal notations of [zs], each after some white space. *)
Fixpoint spaced (zs : list Z) (txt : list ascii) : Prop :=
  match zs with
  | [] => txt = []
  | z :: zs' => exists ws rest, txt = ws ++ show_int z ++ rest /\ forallb isspace ws = true /\
                  stops (fun c => negb (isspace c)) rest /\ spaced zs' rest
  end.

Lemma extract_all : forall zs txt, spaced zs txt ->
  exists xs s', int_extract_all (length zs) (IStream txt false false) = Ok (xs, s') /\
    Forall2 repr xs zs.
Proof.
  intros zs.
  assert (G: forall zs txt, spaced zs txt -> zs <> [] ->
    exists xs s', int_extract_all (length zs) (IStream txt false false) = Ok (xs, s') /\ Forall2 repr xs zs).
  { induction zs0 as [|z zs0 IH]; intros txt H N; [congruence|].
    destruct H as (ws & rest & -> & Hw & Hr & Hs).
    destruct (show_token z) as (T1 & T2 & T3). destruct (show_int_spec z) as (L & _).
    destruct (extract_ok ws (show_int z) rest (MkInt 0 []) z) as (y & Ry & E); auto; [rewrite T3; auto|].
    cbn [length int_extract_all]. rewrite E. destruct zs0 as [|z' zs'].
    - simpl in Hs. subst rest. cbn [length int_extract_all bind fst snd]. do 2 eexists. split; [reflexivity|].
      constructor; auto.
    - assert (R: exists c r, rest = c :: r).
      { destruct rest; eauto. destruct Hs as (ws' & r' & K & _).
        destruct (show_token z') as (T1' & _). destruct ws'; [|discriminate]. simpl in K.
        destruct (show_int z'); [congruence|discriminate]. }
      destruct R as (c & r & ->). destruct (IH (c :: r) Hs ltac:(discriminate)) as (xs & s' & Ex & F).
      rewrite Ex. cbn [bind fst snd]. do 2 eexists. split; [reflexivity|]. constructor; auto. }
  intros txt H. destruct zs; [|apply G; auto; discriminate].
  simpl. do 2 eexists. split; [reflexivity|constructor].
Qed.

(** The characters that separate numbers. *)
Lemma spaces_exact : forall c, isspace c = true <-> In (code c) [9; 10; 11; 12; 13; 32].
Proof.
  intros c. unfold isspace. rewrite orb_true_iff, andb_true_iff, Z.eqb_eq, !Z.leb_le. cbn [In]. lia.
Qed.
