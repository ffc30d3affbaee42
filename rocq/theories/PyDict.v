(** Dict and Python's dict. *)
From Coq Require Import ZArith List Bool Lia Sorted.
From Verif Require Import Outcome ListModel ListSpec ListMore SetSpec SetFacts DictModel DictSpec DictFacts DictProg PySpec.
Import ListNotations.
Open Scope Z_scope.

Section Dict.
Context {K V : Type} (ltk eqk : K -> K -> bool).
Hypothesis tot : strict_total ltk.
Hypothesis dec : decides eqk.
Notation dict := (list (K * V)).

Lemma put_keys (d : dict) k x : map fst (py_put eqk d k x) = if existsb (fun j => eqk j k) (map fst d) then map fst d else map fst d ++ [k].
Proof.
  induction d as [|e d IH]; cbn [py_put map existsb app]; [reflexivity|].
  destruct (eqk (fst e) k); cbn [map orb fst]; [reflexivity|]. rewrite IH. destruct (existsb _ _); reflexivity.
Qed.

Lemma eqk_true a b : eqk a b = true <-> a = b.
Proof. apply dec. Qed.

Lemma dict_order (xs : dict) : map fst (py_dict eqk xs) = firsts eqk (map fst xs).
Proof.
  unfold py_dict, py_update. induction xs as [|e xs IH] using rev_ind; [reflexivity|].
  rewrite fold_left_app. cbn [fold_left]. rewrite put_keys, IH, map_app, firsts_app by assumption.
  cbn [map firsts filter].
  assert (E : existsb (fun j => eqk j (fst e)) (firsts eqk (map fst xs)) = existsb (eqk (fst e)) (map fst xs)).
  { apply eq_true_iff_eq. rewrite !existsb_exists. split; intros (y & I & Q); exists y; apply eqk_true in Q; subst y;
      (split; [apply (firsts_in K eqk dec); assumption|apply eqk_true; reflexivity]). }
  rewrite E. destruct (existsb (eqk (fst e)) (map fst xs)); cbn; rewrite ?app_nil_r; reflexivity.
Qed.

Lemma put_in (d : dict) k x : NoDup (map fst d) -> forall j y, In (j, y) (py_put eqk d k x) <-> (j = k /\ y = x) \/ (j <> k /\ In (j, y) d).
Proof.
  induction d as [|[j0 y0] d IH]; intros N j y; cbn [py_put fst].
  - cbn. split; [intros [E|[]]; injection E; auto|intros [(-> & ->)|(_ & [])]; auto].
  - cbn [map fst] in N. inversion N as [|? ? N1 N2]; subst. destruct (eqk j0 k) eqn:E.
    + apply eqk_true in E. subst j0. cbn [In]. split.
      * intros [Q|Q]; [injection Q; auto|]. right. split; [|auto]. intros ->. apply N1. apply in_map_iff. exists (k, y). auto.
      * intros [(-> & ->)|(Q & [R|R])]; auto. injection R as -> _. congruence.
    + assert (j0 <> k) by (intros ->; assert (eqk k k = true) by (apply eqk_true; reflexivity); congruence).
      cbn [In]. rewrite (IH N2). split.
      * intros [Q|Q]; [injection Q as <- <-; auto|tauto].
      * intros [(-> & ->)|(Q & [R|R])]; auto.
Qed.

Lemma dict_nodup (xs : dict) : NoDup (map fst (py_dict eqk xs)).
Proof. rewrite dict_order. apply (firsts_nodup K eqk dec). Qed.

Lemma dict_last (xs : dict) : forall k x, In (k, x) (py_dict eqk xs) <-> last_value xs k x.
Proof.
  induction xs as [|[k0 x0] xs IH] using rev_ind; intros k x.
  - cbn. split; [intros []|]. intros ([|? a] & b & E & _); discriminate.
  - unfold py_dict, py_update. rewrite fold_left_app. cbn [fold_left fst snd]. fold (py_update eqk [] xs). fold (py_dict eqk xs).
    rewrite (put_in _ k0 x0 (dict_nodup xs)). rewrite IH. split.
    + intros [(-> & ->)|(N & a & b & -> & A)].
      * exists xs, []. split; [reflexivity|]. intros y [].
      * exists a, (b ++ [(k0, x0)]). split; [rewrite <- app_assoc; reflexivity|].
        intros y I. apply in_app_or in I as [I|[I|[]]]; [apply (A y I)|]. injection I as E _. congruence.
    + intros (a & b & E & A). destruct b as [|e b _] using rev_ind.
      * apply app_inj_tail in E as (-> & E). injection E as -> ->. auto.
      * rewrite app_comm_cons, app_assoc in E. apply app_inj_tail in E as (-> & <-).
        right. split; [intros ->; apply (A x0); apply in_or_app; right; left; reflexivity|].
        exists a, b. split; [reflexivity|]. intros y I. apply (A y). apply in_or_app. auto.
Qed.

Lemma of_listing (xs : dict) : increasing ltk (map fst (dict_of ltk xs)) /\ forall k x, In (k, x) (dict_of ltk xs) <-> first_value xs k x.
Proof.
  destruct (extend_ok ltk tot [] no_entry xs) as (_ & m & (I & L) & F).
  - split; [constructor|]. intros k x. split; [intros []|discriminate].
  - split; [exact I|]. intros k x. rewrite L. apply F.
Qed.

Lemma first_exists (xs : dict) k : In k (map fst xs) -> exists x, first_value xs k x.
Proof.
  induction xs as [|[j y] xs IH]; [intros []|]. cbn [map fst]. intros I.
  destruct (eqk j k) eqn:E.
  - apply eqk_true in E. subst j. exists y, [], xs. split; [reflexivity|]. intros z [].
  - assert (j <> k) by (intros ->; assert (eqk k k = true) by (apply eqk_true; reflexivity); congruence).
    destruct I as [I|I]; [congruence|]. destruct (IH I) as (x & a & b & -> & A). exists x, ((j, y) :: a), b.
    split; [reflexivity|]. intros z [Q|Q]; [injection Q; congruence|apply (A z Q)].
Qed.

Lemma first_in (xs : dict) k x : first_value xs k x -> In k (map fst xs).
Proof. intros (a & b & -> & _). rewrite map_app. apply in_or_app. right. left. reflexivity. Qed.

Lemma of_keys (xs : dict) k : In k (map fst (dict_of ltk xs)) <-> In k (map fst xs).
Proof.
  split.
  - intros I. apply in_map_iff in I as ((j & x) & <- & I). apply of_listing in I. cbn. eapply first_in, I.
  - intros I. destruct (first_exists xs k I) as (x & F). apply of_listing in F. apply in_map_iff. exists (k, x). auto.
Qed.

Lemma increasing_same (l l' : list K) : increasing ltk l -> increasing ltk l' -> (forall k, In k l <-> In k l') -> l = l'.
Proof.
  destruct tot as (irr & tra & _). revert l'. induction l as [|a l IH]; intros [|b l'] I J E.
  - reflexivity.
  - exfalso. apply (E b). left. reflexivity.
  - exfalso. apply (E a). left. reflexivity.
  - inversion I as [|? ? I1 I2]; inversion J as [|? ? J1 J2]; subst. rewrite Forall_forall in I2, J2.
    assert (a = b).
    { destruct (proj1 (E a) (or_introl eq_refl)) as [Q|Q]; [auto|]. destruct (proj2 (E b) (or_introl eq_refl)) as [R|R]; [auto|].
      exfalso. specialize (I2 b R). specialize (J2 a Q).
      pose proof (tra a b a I2 J2) as C. rewrite irr in C. discriminate. }
    subst b. f_equal. apply IH; auto. intros k. split; intros H.
    + destruct (proj1 (E k) (or_intror H)) as [<-|Q]; [|exact Q]. specialize (I2 a H). rewrite irr in I2. discriminate.
    + destruct (proj2 (E k) (or_intror H)) as [<-|Q]; [|exact Q]. specialize (J2 a H). rewrite irr in J2. discriminate.
Qed.

(** The same keys in the same order. *)
Lemma keys_python (xs : dict) : map fst (dict_of ltk xs) = map fst (py_dict eqk xs) <-> increasing ltk (firsts eqk (map fst xs)).
Proof.
  rewrite dict_order. split.
  - intros <-. apply of_listing.
  - intros I. apply increasing_same; [apply of_listing|exact I|]. intros k. rewrite of_keys. symmetry. apply (firsts_in K eqk dec).
Qed.

(** The same value for every key. *)
Lemma values_python (xs : dict) : (forall k x, In (k, x) (dict_of ltk xs) <-> In (k, x) (py_dict eqk xs)) <->
  (forall k x y, first_value xs k x -> last_value xs k y -> x = y).
Proof.
  split.
  - intros H k x y F L. apply of_listing in F. apply H in F. apply dict_last in L.
    pose proof (dict_nodup xs) as N. revert N F L. generalize (py_dict eqk xs). intros d.
    induction d as [|[j z] d IH]; intros N F L; [destruct F|]. cbn [map fst] in N. inversion N as [|? ? N1 N2]; subst.
    destruct F as [F|F], L as [L|L].
    + congruence.
    + injection F as -> ->. exfalso. apply N1. apply in_map_iff. exists (k, y). auto.
    + injection L as -> ->. exfalso. apply N1. apply in_map_iff. exists (k, x). auto.
    + apply IH; assumption.
  - intros H k x. split; intros I.
    + pose proof I as F. apply of_listing in F. assert (J : In k (map fst (py_dict eqk xs))).
      { rewrite dict_order. apply (firsts_in K eqk dec). eapply first_in, F. }
      apply in_map_iff in J as ((j & y) & E & J). cbn in E. subst j. pose proof J as L. apply dict_last in L.
      rewrite (H k x y F L). exact J.
    + pose proof I as L. apply dict_last in L. assert (J : In k (map fst xs)).
      { apply (firsts_in K eqk dec). rewrite <- dict_order. apply in_map_iff. exists (k, x). auto. }
      destruct (first_exists xs k J) as (y & F). pose proof F as G. apply of_listing in G. rewrite <- (H k y x F L). exact G.
Qed.
End Dict.

Lemma of_python_refuted : dict_of Z.ltb [(2, 1); (1, 1)] <> py_dict Z.eqb [(2, 1); (1, 1)] /\
  dict_of Z.ltb [(1, 1); (1, 2)] = [(1, 1)] /\ py_dict Z.eqb [(1, 1); (1, 2)] = [(1, 2)].
Proof. repeat split; discriminate. Qed.

Lemma extend_python_refuted : dict_extend Z.ltb [(1, 2)] [(1, 1)] = (Ok tt, [(1, 1)]) /\ py_update Z.eqb [(1, 1)] [(1, 2)] = [(1, 2)].
Proof. repeat split. Qed.

Lemma extend_as_dict {K V} (ltk eqk : K -> K -> bool) (xs ys : list (K * V)) :
  dict_extend ltk xs (dict_of ltk ys) = (Ok tt, dict_of ltk (ys ++ xs)) /\ py_update eqk (py_dict eqk ys) xs = py_dict eqk (ys ++ xs).
Proof.
  unfold dict_extend, dict_of, map_insert_range, py_dict, py_update, update. rewrite !fold_left_app. split; reflexivity.
Qed.
