(** Lists of Sets and Dicts with Sets as keys, where of any two of the Sets one includes the other. *)
From Coq Require Import ZArith List Bool Lia.
From Verif Require Import Outcome ListModel ListSpec DequeModel SetModel SetSpec DictModel DictSpec NestModel NestSpec ListFacts ListMore
  SetFacts SetMore DictFacts DictProg NestFacts.
Import ListNotations.
Open Scope Z_scope.

Lemma cmp_ext : forall T (cmp cmp' : T -> T -> comparison) v w, (forall x y, In x v -> In y w -> cmp x y = cmp' x y) ->
  list_cmp cmp v w = list_cmp cmp' v w.
Proof.
  induction v as [|x v IH]; intros [|y w] H; cbn [list_cmp]; auto. rewrite H by (left; auto).
  rewrite (IH w); [auto|]. intros a b A B. apply H; right; auto.
Qed.

Lemma chain_cmp : forall T (lt : T -> T -> bool) v w, strict_total lt -> chain lt (v ++ w) ->
  list_cmp (synth_cmp (set_lt lt)) v w = list_cmp (synth_cmp (by_size lt)) v w.
Proof.
  intros T lt v w O C. apply cmp_ext. intros x y X Y. unfold synth_cmp.
  rewrite !(by_size_chain T lt _ O C); auto; apply in_or_app; auto.
Qed.

Lemma chain_sub : forall T (lt : T -> T -> bool) l m, chain lt l -> (forall x, In x m -> In x l) -> chain lt m.
Proof. intros T lt l m (A & B) H. split; auto. Qed.

Lemma seq_chain : forall T (lt : T -> T -> bool) u v w, strict_total lt -> chain lt (u ++ v ++ w) ->
  let L := seq_lt (synth_cmp (set_lt lt)) in let LE := seq_le (synth_cmp (set_lt lt)) in
  L u u = false /\ (L u v = true -> L v w = true -> L u w = true) /\ (L u v = true \/ u = v \/ L v u = true) /\
  (LE u v = true <-> L u v = true \/ u = v) /\ (LE u v = true -> LE v u = true -> u = v).
Proof.
  intros T lt u v w O C L LE.
  destruct (total_seq _ _ _ (synth_total _ _ (by_size_total T lt O))) as ((I & Tr & To) & E & A).
  assert (P: forall a b, (forall x, In x (a ++ b) -> In x (u ++ v ++ w)) ->
    L a b = seq_lt (synth_cmp (by_size lt)) a b /\ LE a b = seq_le (synth_cmp (by_size lt)) a b).
  { intros a b H. unfold L, LE, seq_lt, seq_le. rewrite (chain_cmp T lt a b O); auto. eapply chain_sub; eauto. }
  assert (U: forall x, In x u -> In x (u ++ v ++ w)) by (intros; rewrite !in_app_iff; auto).
  assert (V: forall x, In x v -> In x (u ++ v ++ w)) by (intros; rewrite !in_app_iff; auto).
  assert (W: forall x, In x w -> In x (u ++ v ++ w)) by (intros; rewrite !in_app_iff; auto).
  assert (Q: forall a b : list (list T), (forall x, In x a -> In x (u ++ v ++ w)) -> (forall x, In x b -> In x (u ++ v ++ w)) ->
    forall x, In x (a ++ b) -> In x (u ++ v ++ w)) by (intros a b HA HB x H; apply in_app_or in H; destruct H; auto).
  destruct (P u u (Q _ _ U U)) as (-> & _). destruct (P u v (Q _ _ U V)) as (-> & ->). destruct (P v w (Q _ _ V W)) as (-> & _).
  destruct (P u w (Q _ _ U W)) as (-> & _). destruct (P v u (Q _ _ V U)) as (-> & ->).
  split; auto. split; [apply Tr|]. split; [apply To|]. split; auto.
Qed.

(** ** Keys *)

Lemma map_lower_ext : forall K V (ltk ltk' : K -> K -> bool) k (l : list (K * V)), (forall p, In p l -> ltk (fst p) k = ltk' (fst p) k) ->
  map_lower ltk k l = map_lower ltk' k l.
Proof.
  induction l as [|p l IH]; cbn [map_lower]; intros H; auto. rewrite (H p) by (left; auto).
  rewrite IH; auto. intros q Q. apply H. right. auto.
Qed.
Lemma map_lower_in : forall K V (ltk : K -> K -> bool) k (l a b : list (K * V)), map_lower ltk k l = (a, b) -> l = a ++ b.
Proof.
  induction l as [|p l IH]; cbn [map_lower]; intros a b H; [inversion H; auto|].
  destruct (ltk (fst p) k); [|inversion H; auto]. destruct (map_lower ltk k l) as (a1 & b1). inversion H; subst. cbn. f_equal. auto.
Qed.
Lemma map_insert_ext : forall K V (ltk ltk' : K -> K -> bool) k x (l : list (K * V)),
  (forall p, In p l -> ltk (fst p) k = ltk' (fst p) k /\ ltk k (fst p) = ltk' k (fst p)) -> map_insert ltk k x l = map_insert ltk' k x l.
Proof.
  intros K V ltk ltk' k x l H. unfold map_insert. rewrite (map_lower_ext _ _ ltk ltk') by (intros; apply H; auto).
  destruct (map_lower ltk' k l) as (a & b) eqn:E. apply map_lower_in in E. destruct b as [|p b]; auto.
  destruct (H p) as (_ & ->); auto. subst. apply in_or_app. right. left. auto.
Qed.
Lemma map_insert_in : forall K V (ltk : K -> K -> bool) k x (l : list (K * V)) p, In p (snd (map_insert ltk k x l)) -> p = (k, x) \/ In p l.
Proof.
  intros K V ltk k x l p. unfold map_insert. destruct (map_lower ltk k l) as (a & b) eqn:E. apply map_lower_in in E. subst l.
  destruct b as [|q b]; [|destruct (ltk k (fst q))]; cbn [snd]; rewrite ?in_app_iff; cbn [In]; intuition.
Qed.
Lemma map_range_ext : forall K V (ltk ltk' : K -> K -> bool) (xs l : list (K * V)),
  (forall p q, In p (xs ++ l) -> In q (xs ++ l) -> ltk (fst p) (fst q) = ltk' (fst p) (fst q)) ->
  map_insert_range ltk xs l = map_insert_range ltk' xs l.
Proof.
  unfold map_insert_range. induction xs as [|p xs IH]; cbn [fold_left]; intros l H; auto.
  rewrite (map_insert_ext _ _ ltk ltk').
  - apply IH. assert (M: forall q, In q (xs ++ snd (map_insert ltk' (fst p) (snd p) l)) -> In q ((p :: xs) ++ l)).
    { intros q Q. apply in_app_or in Q. cbn [app In]. rewrite in_app_iff. destruct Q as [Q|Q]; auto.
      apply map_insert_in in Q. rewrite <- surjective_pairing in Q. destruct Q as [->|Q]; auto. }
    intros q r Q R. apply H; auto.
  - intros q Q. split; apply (H q p) || apply (H p q); cbn [app In]; rewrite ?in_app_iff; auto.
Qed.

Lemma dict_of_chain : forall T V (lt : T -> T -> bool) (xs : list (list T * V)), strict_total lt -> chain lt (map fst xs) ->
  NoDup (map fst (dict_of (set_lt lt) xs)) /\ (forall k x, In (k, x) (dict_of (set_lt lt) xs) <-> first_value xs k x) /\
  (forall k x, first_value xs k x -> dict_at (set_lt lt) (dict_of (set_lt lt) xs) k = Ok x).
Proof.
  intros T V lt xs O C. pose proof (by_size_total T lt O) as BO.
  assert (E: dict_of (set_lt lt) xs = dict_of (by_size lt) xs).
  { unfold dict_of. apply map_range_ext. rewrite app_nil_r. intros p q P Q. apply (by_size_chain T lt _ O C); apply in_map; auto. }
  rewrite E. 
  assert (NE: listing (by_size lt) [] (fun _ : list T => @None V)) by (split; [apply (nil_inc (by_size lt))|intros k x; cbn; split; [tauto|discriminate]]).
  assert (F: forall k x, In (k, x) (dict_of (by_size lt) xs) <-> first_value xs k x).
  { destruct (proj2 (extend_ok (by_size lt) BO [] _ xs NE)) as (m & (_ & M1) & M2). intros k x. rewrite M1. apply M2. }
  destruct (proj2 (extend_ok (by_size lt) BO [] _ xs NE)) as (m & ML & M2).
  split; [apply (inc_nodup _ BO); apply ML|]. split; auto. intros k x FV.
  assert (FI: forall p, In p (dict_of (by_size lt) xs) -> In (fst p) (map fst xs)).
  { intros (j, y) H. apply F in H. destruct H as (a & b & -> & _). cbn. rewrite map_app. apply in_or_app. right. left. auto. }
  assert (KI: In k (map fst xs)) by (destruct FV as (a & b & -> & _); rewrite map_app; apply in_or_app; right; left; auto).
  assert (A: dict_at (by_size lt) (dict_of (by_size lt) xs) k = Ok x).
  { destruct (lookup_ok _ BO _ m k x ML) as (AT & _). rewrite AT. apply M2 in FV. rewrite FV. auto. }
  unfold dict_at, map_find in *. rewrite (map_lower_ext _ _ (set_lt lt) (by_size lt)).
  - destruct (map_lower (by_size lt) k (dict_of (by_size lt) xs)) as (a & b) eqn:D. cbn [snd] in *. destruct b as [|p b]; auto.
    rewrite (by_size_chain T lt _ O C); auto. apply FI. rewrite (map_lower_in _ _ _ _ _ _ _ D). apply in_or_app. right. left. auto.
  - intros p P. apply (by_size_chain T lt _ O C); auto.
Qed.
