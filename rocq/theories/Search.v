(** Proofs about breadth-first search. *)
From Coq Require Import ZArith List Bool Lia.
From Verif Require Import Outcome IntModel IntSpec ListModel ListSpec ListFacts DequeModel DequeFacts SetModel SetSpec SetFacts
  DictModel DictSpec DictFacts DictProg SearchModel SearchSpec.
Import ListNotations.
Open Scope Z_scope.

Section Search.
Context {K : Type} (ltk : K -> K -> bool).
Hypothesis OK : strict_total ltk.
Variables (graph : list (K * list K)) (g : K -> option (list K)) (start : K).
Hypothesis GL : listing ltk graph g.
Hypothesis closed : forall v ws w, g v = Some ws -> In w ws -> has g w.
Hypothesis start_in : has g start.
Hypothesis small : len graph < INT_MAX.

Lemma key_eq_dec : forall a b : K, {a = b} + {a <> b}.
Proof.
  intros a b. destruct (ltk a b) eqn:A; [right; intros ->; rewrite (lt_irr ltk OK) in A; discriminate|].
  destruct (ltk b a) eqn:B; [right; intros ->; rewrite (lt_irr ltk OK) in B; discriminate|].
  left. apply (lt_neither ltk OK); auto.
Qed.

(** [D] holds the distances found; [all] lists the vertices found, in the order in which they were found. *)
Record state (dist : list (K * Z)) (D : K -> option Z) (all : list K) : Prop := {
  st_listing : listing ltk dist D;
  st_nodup : NoDup all;
  st_all : forall k, In k all <-> has D k;
  st_graph : forall k, In k all -> has g k;
  st_walk : forall k d, D k = Some d -> walk g start d k;
  st_small : forall k d, D k = Some d -> 0 <= d < len all;
  st_sorted : forall a x b y c dx dy, all = a ++ x :: b ++ y :: c -> D x = Some dx -> D y = Some dy -> dx <= dy
}.

Lemma all_small : forall dist D all, state dist D all -> len all <= len graph.
Proof.
  intros dist D all S. destruct GL as (GI & GG).
  assert (I: incl all (map fst graph)).
  { intros k H. apply (st_graph _ _ _ S) in H. destruct H as (ws & H). apply GG in H. apply (in_map fst) in H. auto. }
  pose proof (NoDup_incl_length (st_nodup _ _ _ S) I) as L. rewrite map_length in L. unfold len. lia.
Qed.
Lemma dist_len : forall dist D all, state dist D all -> len dist = len all.
Proof.
  intros dist D all S. symmetry. apply (listing_len ltk OK dist D); [apply S|]. exists all. split; [apply S|]. split; [apply S|]. auto.
Qed.

Lemma last_least : forall (all : list K) w a x b y c, all ++ [w] = a ++ x :: b ++ y :: c -> (exists c', all = a ++ x :: b ++ y :: c') \/ (y = w /\ c = [] /\ all = a ++ x :: b).
Proof.
  intros all w a x b y c E. destruct c as [|z c] using rev_ind.
  - right. replace (a ++ x :: b ++ [y]) with ((a ++ x :: b) ++ [y]) in E by (rewrite <- app_assoc; reflexivity).
    apply app_inj_tail in E. destruct E as (-> & ->). auto.
  - left. exists c. replace (a ++ x :: b ++ y :: c ++ [z]) with ((a ++ x :: b ++ y :: c) ++ [z]) in E by (rewrite <- app_assoc; cbn; rewrite <- app_assoc; reflexivity).
    apply app_inj_tail in E. apply E.
Qed.

(** One vertex: its neighbours are found, those found already keep their distance. *)
Lemma visit_ok : forall v d, forall ws done todo dist D, (forall w, In w ws -> exists us, g v = Some us /\ In w us) ->
  state dist D (done ++ todo) -> D v = Some d -> (forall k e, D k = Some e -> e <= d + 1) ->
  exists dist' todo' D', visit ltk d ws dist todo = Ok (dist', todo') /\ state dist' D' (done ++ todo') /\
    (exists more, todo' = todo ++ more) /\
    (forall k e, D k = Some e -> D' k = Some e) /\ (forall k e, D' k = Some e -> e <= d + 1) /\ (forall w, In w ws -> exists e, D' w = Some e).
Proof.
  intros v d. induction ws as [|w ws IH]; intros done todo dist D N S V U; cbn [visit].
  - exists dist, todo, D. split; auto. split; auto. split; [exists []; rewrite app_nil_r; auto|]. split; auto. split; auto. intros w [].
  - pose proof (all_small _ _ _ S) as B. pose proof (dist_len _ _ _ S) as L. pose proof (st_small _ _ _ S v d V) as Dv.
    assert (C: chk32 (d + 1) = Ok (d + 1)) by (apply chk32_ok; unfold INT_MIN, INT_MAX in *; lia). rewrite C. cbn [bind].
    destruct (DictProg.add_ok ltk OK dist D w (d + 1) (st_listing _ _ _ S) ltac:(lia)) as (_ & P & Q).
    destruct (D w) as [e|] eqn:W.
    + rewrite P by (try lia; exists e; auto).
      destruct (IH done todo dist D) as (dist' & todo' & D' & R1 & R2 & R3 & R4 & R5 & R6); auto. { intros u H. apply N. right. auto. }
      exists dist', todo', D'. split; auto. split; auto. split; auto. split; auto. split; auto. intros u [<-|H]; auto. exists e. auto.
    + destruct (Q ltac:(lia) eq_refl) as (dist1 & D1 & A & L1 & (P1 & P2)). rewrite A.
      destruct (N w (or_introl eq_refl)) as (us & G1 & G2).
      assert (NW: ~ In w (done ++ todo)) by (intros H; apply (st_all _ _ _ S) in H; destruct H as (z & H); congruence).
      assert (S1: state dist1 D1 (done ++ todo ++ [w])).
      { rewrite app_assoc. constructor; auto.
        - apply (NoDup_Add (a := w) (l := done ++ todo)); [rewrite <- (app_nil_r (done ++ todo)) at 1; apply Add_app|]. split; auto. apply S.
        - intros k. rewrite in_app_iff. cbn [In]. rewrite (st_all _ _ _ S). unfold has. destruct (key_eq_dec k w) as [->|NE].
          + rewrite P1. split; eauto.
          + rewrite P2 by auto. split; [intros [H|[H|[]]]; [auto|congruence]|auto].
        - intros k H. apply in_app_or in H. destruct H as [H|[<-|[]]]; [apply (st_graph _ _ _ S); auto|eapply closed; eauto].
        - intros k e E. destruct (key_eq_dec k w) as [->|NE].
          + rewrite P1 in E. injection E as <-. econstructor; eauto. apply (st_walk _ _ _ S); auto.
          + rewrite P2 in E by auto. apply (st_walk _ _ _ S); auto.
        - intros k e E. rewrite len_app. change (len [w]) with 1. destruct (key_eq_dec k w) as [->|NE].
          + rewrite P1 in E. injection E as <-. lia.
          + rewrite P2 in E by auto. apply (st_small _ _ _ S) in E. lia.
        - intros a x b y c dx dy E X Y.
          assert (XW: In x (done ++ todo)).
          { apply last_least in E. destruct E as [(c' & ->)|(_ & _ & ->)]; apply in_or_app; right; left; auto. }
          assert (x <> w) as NX by (intros ->; auto). rewrite P2 in X by auto.
          apply last_least in E. destruct E as [(c' & E)|(-> & -> & E)].
          + assert (y <> w). { intros ->. apply NW. rewrite E. apply in_or_app. right. right. apply in_or_app. right. left. auto. }
            rewrite P2 in Y by auto. eapply (st_sorted _ _ _ S); eauto.
          + rewrite P1 in Y. injection Y as <-. eapply U; eauto. }
      assert (PB: deq_push_back w todo = (Ok tt, todo ++ [w])).
      { unfold deq_push_back, update. rewrite len_app in *. pose proof (len_nonneg _ done). rewrite size_ok by (unfold INT_MAX in *; lia).
        unfold check_full. destruct (Z.leb_spec INT_MAX (len todo)); [lia|]. reflexivity. }
      rewrite PB.
      assert (NV: v <> w) by congruence.
      destruct (IH done (todo ++ [w]) dist1 D1) as (dist' & todo' & D' & R1 & R2 & (more & R3) & R4 & R5 & R6); auto.
      { intros u H. apply N. right. auto. } { rewrite P2; auto. }
      { intros k e E. destruct (key_eq_dec k w) as [->|NE]; [rewrite P1 in E; injection E as <-; lia|]. rewrite P2 in E by auto. eauto. }
      exists dist', todo', D'. split; auto. split; auto. split; [exists (w :: more); rewrite R3, <- app_assoc; auto|].
      split. { intros k e E. apply R4. rewrite P2; auto. congruence. }
      split; auto. intros u [<-|H]; auto. exists (d + 1). auto.
Qed.

Lemma search_ok : forall fuel done todo dist D, state dist D (done ++ todo) -> has D start -> D start = Some 0 ->
  (forall v d ws w, In v done -> D v = Some d -> g v = Some ws -> In w ws -> exists e, D w = Some e /\ e <= d + 1) ->
  (forall v q d k e, todo = v :: q -> D v = Some d -> D k = Some e -> e <= d + 1) ->
  (length graph < fuel + length done)%nat ->
  exists dist' D', search ltk fuel graph dist todo = Ok dist' /\ listing ltk dist' D' /\ forall k d, D' k = Some d <-> distance g start k d.
Proof.
  induction fuel as [|fuel IH]; intros done todo dist D S HS S0 N U F; destruct todo as [|v q]; cbn [search deq_is_empty].
  1,3: exists dist, D; split; [auto|]; split; [apply S|]; rewrite app_nil_r in S;
    (assert (M: forall n k, walk g start n k -> exists e, D k = Some e /\ e <= n);
     [intros n k W; induction W as [|n v ws w W (e & E & L) G I];
      [exists 0; split; [auto|lia]|destruct (N v e ws w) as (e' & E' & L'); auto; [apply (st_all _ _ _ S); exists e; auto|exists e'; split; [auto|lia]]]|];
     intros k d; split; [intros E; split; [apply (st_walk _ _ _ S); auto|intros n W; destruct (M n k W) as (e & E' & L); congruence || (assert (e = d) by congruence; lia)]
       |intros (W & Min); destruct (M d k W) as (e & E & L); pose proof (Min e (st_walk _ _ _ S k e E)); rewrite E; f_equal; lia]).
  - exfalso. pose proof (all_small _ _ _ S) as B. rewrite len_app in B. unfold len in B. cbn in B. lia.
  - pose proof (all_small _ _ _ S) as B. rewrite len_app in B. pose proof (len_nonneg _ done).
    unfold deq_pop_front. rewrite size_ok by lia. unfold check_empty. rewrite len_cons. pose proof (len_nonneg _ q).
    destruct (Z.eqb_spec (1 + len q) 0); [lia|].
    assert (IV: In v (done ++ v :: q)) by (apply in_or_app; right; left; auto).
    destruct (proj1 (st_all _ _ _ S v) IV) as (d & V). destruct (st_graph _ _ _ S v IV) as (ws & G).
    destruct (lookup_ok ltk OK dist D v 0 (st_listing _ _ _ S)) as (AT & _). rewrite AT, V. cbn [bind].
    destruct (lookup_ok ltk OK graph g v [] GL) as (AT2 & _). rewrite AT2, G. cbn [bind].
    assert (S1: state dist D ((done ++ [v]) ++ q)) by (rewrite <- app_assoc; exact S).
    destruct (visit_ok v d ws (done ++ [v]) q dist D) as (dist' & q' & D' & R1 & R2 & (more & R3) & R4 & R5 & R6); auto.
    { intros w H1. exists ws. auto. } { intros k e E. eapply U; eauto. }
    rewrite R1. cbn [bind fst snd]. apply (IH (done ++ [v]) q' dist' D'); auto.
    + exists 0. auto.
    + intros u e us w IU E GU IW. apply in_app_or in IU. destruct IU as [IU|[<-|[]]].
      * assert (DU: exists e0, D u = Some e0) by (apply (st_all _ _ _ S); apply in_or_app; auto). destruct DU as (e0 & E0).
        pose proof (R4 _ _ E0) as E1. assert (e0 = e) by congruence. subst e0.
        destruct (N u e us w IU E0 GU IW) as (x & X & L). exists x. auto.
      * rewrite (R4 _ _ V) in E. injection E as <-. rewrite G in GU. injection GU as <-. destruct (R6 w IW) as (x & X). exists x. split; auto. eapply R5; eauto.
    + intros u r e k x -> E X. apply R5 in X. enough (d <= e) by lia.
      apply (st_sorted _ _ _ R2 done v [] u r d e); auto. rewrite <- app_assoc. reflexivity.
    + rewrite app_length. cbn. lia.
Qed.

Lemma distances_ok : forall fuel, (length graph < fuel)%nat ->
  exists dist D, distances ltk fuel graph start = Ok dist /\ listing ltk dist D /\ forall k d, D k = Some d <-> distance g start k d.
Proof.
  intros fuel F. unfold distances.
  assert (L0: listing ltk [] (fun _ : K => @None Z)) by (split; [apply (nil_inc ltk)|intros k x; cbn; split; [tauto|discriminate]]).
  destruct (DictProg.add_ok ltk OK [] (fun _ => None) start 0 L0) as (_ & _ & Q); [unfold len, INT_MAX; cbn; lia|].
  destruct (Q ltac:(unfold len, INT_MAX; cbn; lia) eq_refl) as (dist & D & A & L & (P1 & P2)). rewrite A.
  change (deq_push_back start []) with (Ok tt, [start]). cbv iota beta.
  apply (search_ok fuel [] [start] dist D).
  - assert (ON: forall k d, D k = Some d -> k = start /\ d = 0).
    { intros k d H. destruct (key_eq_dec k start) as [->|NE]; [rewrite P1 in H; injection H; auto|]. rewrite P2 in H by auto. discriminate. }
    constructor; auto.
    + repeat constructor. intros [].
    + intros k. cbn. split; [intros [<-|[]]; exists 0; auto|]. intros (d & H). apply ON in H. left. symmetry. apply H.
    + intros k [<-|[]]. auto.
    + intros k d H. apply ON in H. destruct H as (-> & ->). constructor.
    + intros k d H. apply ON in H. destruct H as (-> & ->). unfold len. cbn. lia.
    + intros a x b y c dx dy _ X Y. apply ON in X, Y. lia.
  - exists 0. auto.
  - auto.
  - intros v d ws w [].
  - intros v q d k e E V H. destruct (key_eq_dec k start) as [->|NE]; [|rewrite P2 in H by auto; discriminate].
    injection E as <- _. rewrite V in H. injection H as <-. lia.
  - cbn. lia.
Qed.
End Search.
