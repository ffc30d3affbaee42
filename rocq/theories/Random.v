(** The distribution of [Int::random]. *)
From Coq Require Import ZArith List Bool Lia FinFun.
From Verif Require Import Outcome IntModel IntSpec IntBase IntProgSpec IntMore RandomModel RandomSpec.
Import ListNotations.
Open Scope Z_scope.

Notation tens := [0; 1; 2; 3; 4; 5; 6; 7; 8; 9].
Notation nines := [1; 2; 3; 4; 5; 6; 7; 8; 9].
Lemma tens_spec : forall d, In d tens <-> digit d.
Proof. intros d. unfold digit. cbn [In]. lia. Qed.
Lemma nines_spec : forall d, In d nines <-> 1 <= d <= 9.
Proof. intros d. cbn [In]. lia. Qed.

Lemma lists_spec : forall n l, In l (digit_lists n) <-> length l = n /\ Forall digit l.
Proof.
  induction n as [|n I]; intros l; cbn [digit_lists].
  - cbn. split; [intros [<-|[]]; auto|]. intros (L & _). destruct l; [auto|discriminate].
  - rewrite in_flat_map. split.
    + intros (k & K & H). apply in_map_iff in H as (d & <- & D). apply I in K as (K1 & K2). rewrite app_length. cbn [length]. split; [lia|].
      apply Forall_app. split; auto. constructor; auto. apply tens_spec; auto.
    + intros (L & F). destruct (exists_last (l := l)) as (k & d & ->); [destruct l; discriminate|]. apply Forall_app in F as (F1 & F2). inversion F2; subst.
      rewrite app_length in L. cbn [length] in L. exists k. split; [apply I; split; [lia|auto]|]. apply in_map_iff. exists d. split; auto. apply tens_spec; auto.
Qed.
Lemma nodup_app : forall A (l k : list A), NoDup l -> NoDup k -> (forall x, In x l -> ~ In x k) -> NoDup (l ++ k).
Proof.
  induction l as [|a l I]; intros k N K D; auto. inversion N; subst. cbn. constructor.
  - rewrite in_app_iff. intros [X|X]; auto. apply (D a); [left|]; auto.
  - apply I; auto. intros x X. apply D. right; auto.
Qed.
Lemma nodup_flat : forall A B (f : A -> list B) l, NoDup l -> (forall a, In a l -> NoDup (f a)) ->
  (forall a b x, In a l -> In b l -> In x (f a) -> In x (f b) -> a = b) -> NoDup (flat_map f l).
Proof.
  induction l as [|a l I]; intros N F D; cbn [flat_map]; [constructor|]. inversion N; subst. apply nodup_app.
  - apply F. left; auto.
  - apply I; auto. intros b B'. apply F. right; auto. intros b c x B' C X Y. apply (D b c x); auto; right; auto.
  - intros x X Y. apply in_flat_map in Y as (b & B' & Y). assert (a = b) by (apply (D a b x); auto; [left|right]; auto). subst. auto.
Qed.

Lemma lists_nodup : forall n, NoDup (digit_lists n).
Proof.
  induction n as [|n I]; cbn [digit_lists]; [constructor; [intros []|constructor]|]. apply nodup_flat; auto.
  - intros a _. apply Injective_map_NoDup; [|repeat constructor; cbn; lia]. intros x y E. apply app_inj_tail in E. tauto.
  - intros a b x _ _ X Y. apply in_map_iff in X as (d & <- & _). apply in_map_iff in Y as (e & Y & _). apply app_inj_tail in Y. destruct Y; auto.
Qed.
Lemma draws_all : forall d, NoDup (draws d) /\
  (forall l m, In (l, m) (draws d) <-> length l = Z.to_nat d /\ Forall (fun k => 0 <= k <= 9) l /\ 1 <= m <= 9).
Proof.
  intros d. unfold draws. split.
  - generalize (lists_nodup (Z.to_nat d)). generalize (digit_lists (Z.to_nat d)). induction l as [|a l I]; intros N; [constructor|]. inversion N; subst. cbn [list_prod].
    apply nodup_app; auto.
    + apply Injective_map_NoDup; [|repeat constructor; cbn; lia]. intros x y E. congruence.
    + intros (x, m) X Y. apply in_map_iff in X as (k & X & _). inversion X; subst. apply in_prod_iff in Y. tauto.
  - intros l m. rewrite in_prod_iff, lists_spec, nines_spec. unfold digit. tauto.
Qed.

Definition total {A} (f : A -> nat) (l : list A) : nat := fold_right (fun a n => f a + n)%nat 0%nat l.
Lemma total_cons : forall A (f : A -> nat) a l, total f (a :: l) = (f a + total f l)%nat.
Proof. reflexivity. Qed.
Lemma total_app : forall A (f : A -> nat) l k, total f (l ++ k) = (total f l + total f k)%nat.
Proof. intros. unfold total. induction l; cbn; auto. rewrite IHl. lia. Qed.
Lemma total_flat : forall A B (f : B -> nat) (h : A -> list B) l, total f (flat_map h l) = total (fun a => total f (h a)) l.
Proof. intros. induction l; cbn [flat_map]; auto. rewrite total_app, IHl. reflexivity. Qed.
Lemma total_ext : forall A (f g : A -> nat) l, (forall a, In a l -> f a = g a) -> total f l = total g l.
Proof. intros A f g l. induction l as [|a l I]; intros H; auto. rewrite !total_cons, H by (left; auto). rewrite <- I; auto. intros b B. apply H. right; auto. Qed.
Lemma total_map : forall A B (f : B -> nat) (h : A -> B) l, total f (map h l) = total (fun a => f (h a)) l.
Proof. intros. induction l; auto. cbn [map]. rewrite !total_cons, IHl. reflexivity. Qed.
Lemma count_prod : forall A B (f : A * B -> bool) l k, length (filter f (list_prod l k)) = total (fun a => length (filter (fun b => f (a, b)) k)) l.
Proof.
  intros A B f l k. induction l as [|a l I]; auto. cbn [list_prod]. rewrite filter_app, app_length, I, total_cons. f_equal.
  clear I. induction k as [|b k I]; auto. cbn. destruct (f (a, b)); cbn; auto.
Qed.
Lemma total_single : forall A (f : A -> nat) x n l, NoDup l -> In x l -> f x = n -> (forall y, In y l -> y <> x -> f y = 0%nat) -> total f l = n.
Proof.
  intros A f x n l N H F O. induction l as [|a l I]; [destruct H|]. inversion N; subst. rewrite total_cons.
  destruct H as [->|H].
  - replace (total f l) with 0%nat; [lia|]. clear I. symmetry. assert (K: forall y, In y l -> f y = 0%nat).
    { intros y Y. apply O; [right; auto|]. intros ->. auto. }
    clear - K. induction l as [|b l I]; auto. rewrite total_cons, K by (left; auto). apply I. intros y Y. apply K. right; auto.
  - rewrite (O a); [|left; auto|intros ->; auto]. cbn. apply I; auto. intros y Y. apply O. right; auto.
Qed.

(** The result in terms of the draws. *)
Lemma map_nth_seq : forall (l : list Z), map (fun k => nth k l 0) (seq 0 (length l)) = l.
Proof.
  intros l. apply (nth_ext _ _ 0 0); [rewrite map_length, seq_length; auto|]. intros n L. rewrite map_length, seq_length in L.
  rewrite (nth_indep _ 0 ((fun k => nth k l 0) 0%nat)) by (rewrite map_length, seq_length; auto). rewrite (map_nth (fun k => nth k l 0)), seq_nth by auto. reflexivity.
Qed.
Lemma upd_last : forall l (a b : Z), upd (l ++ [a]) (length l) b = l ++ [b].
Proof. induction l; intros; cbn; auto. rewrite IHl. auto. Qed.
Lemma random_list : forall low t m, int_random 0 (fun k => nth k (low ++ [t]) 0) m (Z.of_nat (S (length low))) = Ok (MkInt 1 (low ++ [if t =? 0 then m else t])).
Proof.
  intros low t m. unfold int_random. destruct (Z.ltb_spec (Z.of_nat (S (length low))) (-1)); [lia|]. destruct (Z.eqb_spec (Z.of_nat (S (length low))) (-1)); [lia|].
  change DIGITS_PER_CHUNK with 1. rewrite Z.quot_1_r, Nat2Z.id.
  replace (S (length low)) with (length (low ++ [t])) by (rewrite app_length; cbn; lia). rewrite map_nth_seq, last_last, app_length. cbn [length].
  replace (length low + 1 - 1)%nat with (length low) by lia. rewrite upd_last. destruct (low ++ [t]) eqn:E; [destruct low; discriminate|]. rewrite <- E. destruct (t =? 0); auto.
Qed.
Lemma val_digits_n : forall n v, 10 ^ Z.of_nat n <= v < 10 ^ Z.of_nat (S n) ->
  exists low top, length low = n /\ Forall digit (low ++ [top]) /\ top <> 0 /\ val (low ++ [top]) = v.
Proof.
  induction n as [|n I]; intros v B.
  - exists [], v. cbn in B. split; auto. split; [constructor; auto; unfold digit; lia|]. split; [lia|]. cbn. lia.
  - destruct (I (v / 10)) as (low & top & L & F & T & V).
    + rewrite (Nat2Z.inj_succ (S n)), (Nat2Z.inj_succ n), !Z.pow_succ_r in * by lia.
      split; [apply Z.div_le_lower_bound; lia|apply Z.div_lt_upper_bound; lia].
    + exists (v mod 10 :: low), top. split; [cbn; lia|]. split; [cbn; constructor; auto; pose proof (Z.mod_pos_bound v 10 ltac:(lia)); unfold digit; lia|]. split; auto.
      cbn [app]. rewrite val_cons, V. pose proof (Z.div_mod v 10 ltac:(lia)). lia.
Qed.
Lemma val_digits : forall v d, digit_count v d -> 0 < v -> exists low top, length (low ++ [top]) = Z.to_nat d /\ Forall digit (low ++ [top]) /\ top <> 0 /\ val (low ++ [top]) = v.
Proof.
  intros v d [(Z0 & _)|(_ & D & B)] P; [lia|]. destruct (val_digits_n (Z.to_nat (d - 1)) v) as (low & top & L & H).
  - rewrite Nat2Z.inj_succ, Z2Nat.id by lia. replace (Z.succ (d - 1)) with d by lia. lia.
  - exists low, top. split; auto. rewrite app_length. cbn. lia.
Qed.
Lemma equally_likely : forall d v, 0 < v -> digit_count v d -> length (filter (gives d v) (draws d)) = 10%nat.
Proof.
  intros d v P D. destruct (val_digits v d D P) as (low & top & L & F & T & V). rewrite app_length in L. cbn [length] in L.
  assert (d = Z.of_nat (S (length low))) by (destruct D as [(A & B)|(A & B & _)]; lia). subst d. clear L.
  unfold draws. rewrite count_prod, Nat2Z.id. cbn [digit_lists]. rewrite total_flat. pose proof F as F'. apply Forall_app in F' as (F1 & F2). inversion F2 as [|? ? Ft _]; subst.
  apply (total_single _ _ low); [apply lists_nodup|apply lists_spec; auto| |].
  - rewrite total_map.
    rewrite (total_ext _ _ (fun t => length (filter (fun b => (if t =? 0 then b else t) =? top) nines))).
    + unfold digit in Ft. assert (K: In top nines) by (apply nines_spec; lia). cbn [In] in K. repeat (destruct K as [<-|K]; [reflexivity|]). contradiction.
    + intros t Ht. f_equal. apply filter_ext_in. intros b Hb. unfold gives. cbn [fst snd]. rewrite random_list. unfold value. cbn [sign chunks]. rewrite Z.mul_1_l.
      apply tens_spec in Ht. apply nines_spec in Hb. set (u := if t =? 0 then b else t).
      assert (U: digit u) by (unfold u, digit in *; destruct (t =? 0); lia).
      destruct (Z.eqb_spec u top) as [->|Nu]; [apply Z.eqb_refl|]. apply Z.eqb_neq. intros E. apply Nu.
      apply val_inj_len in E; auto; [apply app_inj_tail in E; tauto| |rewrite !app_length; auto]. apply Forall_app. auto.
  - intros k K N. apply lists_spec in K as (K1 & K2). rewrite total_map.
    rewrite (total_ext _ _ (fun _ : Z => 0%nat) tens); [reflexivity|]. intros t Ht.
    rewrite (filter_ext_in _ (fun _ => false)); [reflexivity|]. intros b Hb. unfold gives. cbn [fst snd]. rewrite <- K1, random_list. unfold value. cbn [sign chunks].
    rewrite Z.mul_1_l. apply Z.eqb_neq. intros E. apply N. apply tens_spec in Ht. apply nines_spec in Hb.
    apply val_inj_len in E; auto; [apply app_inj_tail in E; tauto| |rewrite !app_length; cbn; lia]. apply Forall_app. split; auto. constructor; auto.
    unfold digit in *. destruct (t =? 0); lia.
Qed.
Lemma default_draw : forall n l dg most, 0 <= n -> int_random n dg most (-1) = int_random l dg most n.
Proof. intros n l dg most P. unfold int_random. change (-1 <? -1) with false. change (-1 =? -1) with true. cbv iota. destruct (Z.ltb_spec n (-1)); [lia|]. destruct (Z.eqb_spec n (-1)); [lia|]. change DIGITS_PER_CHUNK with 1. rewrite Z.quot_1_r. reflexivity. Qed.

(** Seeds. *)
Lemma missed : forall (f : Z -> Z) n lo, exists v, lo <= v <= lo + Z.of_nat n /\ forall s, 0 <= s < Z.of_nat n -> f s <> v.
Proof.
  intros f n lo. set (vs := map (fun k => lo + Z.of_nat k) (seq 0 (S n))). set (rs := map (fun k => f (Z.of_nat k)) (seq 0 n)).
  destruct (Exists_dec (fun v => ~ In v rs) vs) as [E|E]; [intros v; destruct (in_dec Z.eq_dec v rs); [right|left]; tauto| |].
  - apply Exists_exists in E as (v & V & R). apply in_map_iff in V as (k & <- & K). apply in_seq in K. exists (lo + Z.of_nat k). split; [lia|].
    intros s S Q. apply R. apply in_map_iff. exists (Z.to_nat s). rewrite Z2Nat.id by lia. split; auto. apply in_seq. lia.
  - exfalso. assert (I: incl vs rs).
    { intros v V. destruct (in_dec Z.eq_dec v rs); auto. exfalso. apply E. apply Exists_exists. eauto. }
    apply NoDup_incl_length in I.
    + unfold vs, rs in I. rewrite !map_length, !seq_length in I. lia.
    + apply Injective_map_NoDup; [|apply seq_NoDup]. intros a b. lia.
Qed.
Lemma never_returned : forall gen d, 10 <= d -> exists v, 0 < v /\ digit_count v d /\
  forall seed x, 0 <= seed < 2 ^ 32 -> int_random_seeded gen seed d = Ok x -> value x <> v.
Proof.
  intros gen d D. set (f := fun seed => match int_random_seeded gen seed d with Ok x => value x | _ => 0 end).
  destruct (missed f (Z.to_nat (2 ^ 32)) (10 ^ (d - 1))) as (v & V & M). rewrite Z2Nat.id in * by lia.
  assert (B: 10 ^ 9 <= 10 ^ (d - 1)) by (apply Z.pow_le_mono_r; lia). assert (E: 10 ^ d = 10 * 10 ^ (d - 1)) by (rewrite <- Z.pow_succ_r by lia; f_equal; lia).
  change (10 ^ 9) with 1000000000 in B. change (2 ^ 32) with 4294967296 in *. exists v. split; [lia|]. split; [right; lia|].
  intros seed x S Q. specialize (M seed S). unfold f in M. rewrite Q in M. auto.
Qed.
Lemma never_default : forall gen n, 10 <= n -> exists v, 0 < v /\ digit_count v n /\
  forall seed x, 0 <= seed < 2 ^ 32 -> int_random_seeded gen seed (-1) = Ok x -> value x <> v.
Proof.
  intros gen d D. set (f := fun seed => match int_random_seeded gen seed (-1) with Ok x => value x | _ => 0 end).
  destruct (missed f (Z.to_nat (2 ^ 32)) (10 ^ (d - 1))) as (v & V & M). rewrite Z2Nat.id in * by lia.
  assert (B: 10 ^ 9 <= 10 ^ (d - 1)) by (apply Z.pow_le_mono_r; lia). assert (E: 10 ^ d = 10 * 10 ^ (d - 1)) by (rewrite <- Z.pow_succ_r by lia; f_equal; lia).
  change (10 ^ 9) with 1000000000 in B. change (2 ^ 32) with 4294967296 in *. exists v. split; [lia|]. split; [right; lia|].
  intros seed x S Q. specialize (M seed S). unfold f in M. rewrite Q in M. auto.
Qed.
