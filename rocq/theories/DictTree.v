(** Dict programs with comparisons that may throw. *)
From Coq Require Import ZArith List Bool Ascii Lia.
From Verif Require Import Outcome ListModel ListSpec ListFacts ListCallModel SetModel SetSpec SetFacts SetProg DictModel DictSpec DictFacts DictProg
  TreeModel SetTreeModel DictTreeModel TreeSpec TreeFacts SetTree UndefSpec UndefFacts.
Import ListNotations.
Open Scope Z_scope.

Section Dict_.
Context {S X K V : Type} (may : X -> Prop) (lessk eqk : K -> K -> call S X bool) (lessv eqv : V -> V -> call S X bool)
  (ltk ekb : K -> K -> bool) (ltv evb : V -> V -> bool) (showk : K -> list ascii) (showv : V -> list ascii)
  (shape : tree (K * V) -> list (K * V) -> tree (K * V)) (shapek : tree K -> list K -> tree K) (shapev : tree V -> list V -> tree V).
Hypothesis OK : strict_total ltk.
Hypothesis OV : strict_total ltv.
Hypothesis DK : decides ekb.
Hypothesis DV : decides evb.
Hypothesis HK : honest lessk ltk.
Hypothesis HV : honest lessv ltv.
Hypothesis QK : honest eqk ekb.
Hypothesis QV : honest eqv evb.
Hypothesis MK : forall x, throws lessk x -> may x.
Hypothesis MV : forall x, throws lessv x -> may x.
Hypothesis NK : forall x, throws eqk x -> may x.
Hypothesis NV : forall x, throws eqv x -> may x.
Hypothesis HS : keeps shape.
Hypothesis HSK : keeps shapek.
Hypothesis HSV : keeps shapev.
Implicit Types (t : tree (K * V)) (l m : list (K * V)).
Notation gives := (gives (S := S) may).
Notation runs := (runs (S := S) may).
Notation tells_of := (tells_of (S := S) may).
Notation key := (@fst K V).
Notation ordered l := (increasing ltk (map key l)).

(** ** Comparison of entries *)
Lemma then_honest : forall A (c : call S X bool) (f : bool -> call S X A) s r, fst (cthen c f s) = inl r ->
  exists b s', fst (c s) = inl b /\ fst (f b s') = inl r.
Proof. intros A c f s r. unfold cthen. destruct (c s) as [[b|x] s']; cbn; [eauto|discriminate]. Qed.
Lemma then_throws : forall A (c : call S X bool) (f : bool -> call S X A) s x, fst (cthen c f s) = inr x ->
  fst (c s) = inr x \/ exists b s', fst (f b s') = inr x.
Proof. intros A c f s x. unfold cthen. destruct (c s) as [[b|y] s']; cbn; [eauto|]. intros H. injection H as ->. auto. Qed.

Lemma pair_honest : honest (pair_less lessk lessv) (pair_lt ltk ltv).
Proof.
  intros p q s r H. unfold pair_less in H. unfold pair_lt.
  apply then_honest in H. destruct H as (b & s1 & B & H). apply HK in B. rewrite <- B. destruct b; [injection H as <-; auto|]. cbn [orb].
  apply then_honest in H. destruct H as (b & s2 & B2 & H). apply HK in B2. rewrite <- B2. destruct b; [injection H as <-; auto|]. cbn [negb andb].
  apply then_honest in H. destruct H as (b & s3 & B3 & H). apply HV in B3. rewrite <- B3. destruct b; [injection H as <-; auto|].
  apply then_honest in H. destruct H as (b & s4 & _ & H). injection H as <-. auto.
Qed.
Lemma pair_throws : forall x, throws (pair_less lessk lessv) x -> may x.
Proof.
  intros x (p & q & s & H). unfold pair_less in H.
  apply then_throws in H. destruct H as [H|(b & s1 & H)]; [apply MK; repeat eexists; eauto|]. destruct b; [discriminate|].
  apply then_throws in H. destruct H as [H|(b & s2 & H)]; [apply MK; repeat eexists; eauto|]. destruct b; [discriminate|].
  apply then_throws in H. destruct H as [H|(b & s3 & H)]; [apply MV; repeat eexists; eauto|]. destruct b; [discriminate|].
  apply then_throws in H. destruct H as [H|(b & s4 & H)]; [apply MV; repeat eexists; eauto|]. discriminate.
Qed.
Notation peb := (fun p q : K * V => ekb (fst p) (fst q) && evb (snd p) (snd q)).
Lemma eq_honest : honest (pair_eq eqk eqv) peb.
Proof.
  intros p q s r H. unfold pair_eq in H. apply then_honest in H. destruct H as (b & s1 & B & H). apply QK in B. rewrite <- B.
  destruct b; [apply QV in H; auto|injection H as <-; auto].
Qed.
Lemma eq_throws : forall x, throws (pair_eq eqk eqv) x -> may x.
Proof.
  intros x (p & q & s & H). unfold pair_eq in H. apply then_throws in H. destruct H as [H|(b & s1 & H)]; [apply NK; repeat eexists; eauto|].
  destruct b; [apply NV; repeat eexists; eauto|discriminate].
Qed.

(** ** The tree and the sequence *)
Lemma lower_split : forall k a b, (forall e, In e a -> ltk (fst e) k = true) -> match b with [] => True | e :: _ => ltk (fst e) k = false end ->
  map_lower (V := V) ltk k (a ++ b) = (a, b).
Proof.
  induction a as [|e a IH]; intros b A B; cbn [app].
  - destruct b as [|e b]; auto. cbn [map_lower]. rewrite B. auto.
  - cbn [map_lower]. rewrite A by (cbn; auto). rewrite IH; auto. intros f F. apply A. cbn. auto.
Qed.
Lemma lower_cut : forall k l a b, cut_at key ltk k l a b -> (forall f, In f l -> fst f <> k) -> map_lower ltk k l = (a, b).
Proof.
  intros k l a b (-> & A & B) N. apply lower_split.
  - intros e H. destruct (ltk (fst e) k) eqn:Q; auto. exfalso. apply (N e); [apply in_or_app; auto|]. apply (lt_neither ltk OK); auto.
  - destruct b as [|e b]; auto. apply (lt_asym ltk OK). apply B. cbn. auto.
Qed.
Lemma lower_at : forall a f c, ordered (a ++ f :: c) -> map_lower ltk (fst f) (a ++ f :: c) = (a, f :: c).
Proof.
  intros a f c I. apply lower_split; [|apply (lt_irr ltk OK)]. apply ord_app in I. destruct I as (_ & _ & I). intros e H. apply I; cbn; auto.
Qed.
Lemma lower_none : forall k l, ordered l -> (forall f, In f l -> fst f <> k) -> exists a b, map_lower ltk k l = (a, b) /\ cut_at key ltk k l a b.
Proof.
  intros k l I N. induction l as [|e l IH].
  - exists [], []. split; auto. split; auto. split; intros f [].
  - apply ord_cons in I. destruct I as (I & J). destruct (IH I) as (a & b & E & AB & A & B); [intros f F; apply N; cbn; auto|]. cbn [map_lower].
    destruct (ltk (fst e) k) eqn:Q.
    + rewrite E. exists (e :: a), b. split; auto. split; [cbn; congruence|]. split; auto. intros f [<-|F]; auto. apply (lt_asym ltk OK). auto.
    + assert (P: ltk k (fst e) = true). { destruct (ltk k (fst e)) eqn:P; auto. exfalso. apply (N e); [cbn; auto|]. apply (lt_neither ltk OK); auto. }
      exists [], (e :: l). split; auto. split; auto. split; [intros f []|]. intros f [<-|F]; auto. apply (lt_tr ltk OK) with (fst e); auto.
Qed.

Lemma inserted_map : forall k x l b l', ordered l -> inserted key ltk (k, x) l b l' -> map_insert ltk k x l = (b, l').
Proof.
  intros k x l b l' I [(-> & a & c & C & -> & N)|(-> & -> & f & F & E)]; unfold map_insert; cbn [fst] in *.
  - rewrite (lower_cut k l a c C N). destruct C as (_ & _ & C). destruct c as [|p c]; auto. rewrite C by (cbn; auto). auto.
  - apply in_split in F. destruct F as (a & c & ->). subst k. rewrite lower_at by auto. rewrite (lt_irr ltk OK). auto.
Qed.
Lemma filled_map : forall xs l l', ordered l -> filled key ltk xs l l' -> map_insert_range ltk xs l = l'.
Proof.
  intros xs l l' I F. induction F as [l|(k, x) xs l b l1 l2 H F IH]; auto. unfold map_insert_range in *. cbn [fold_left fst snd].
  rewrite (inserted_map _ _ _ _ _ I H). cbn [snd]. apply IH. eapply inserted_ordered; eauto.
Qed.

(** What [find] finds. *)
Lemma find_tells : forall k t, ordered (elems t) -> tells_of (find_tree key lessk k) t (fun o => match o with
  | Some j => exists a x b, elems t = a ++ (k, x) :: b /\ j = length a /\ map_find ltk k (elems t) = Some x
  | None => map_find ltk k (elems t) = None /\ forall f, In f (elems t) -> fst f <> k
  end).
Proof.
  intros k t I. eapply g_conseq; [apply (find_gives may key lessk ltk OK HK MK); auto| |auto]. cbn beta. intros [j|] t' (-> & H); split; auto.
  - destruct H as (a & (k0, x) & b & E & <- & ->). cbn [fst] in *. exists a, x, b. split; auto. split; auto. unfold map_find. rewrite E in *.
    change k0 with (fst (k0, x)) at 1. rewrite lower_at by auto. cbn [snd fst]. rewrite (lt_irr ltk OK). auto.
  - split; auto. unfold map_find. destruct (lower_none k _ I H) as (a & b & -> & _ & _ & B). cbn [snd]. destruct b as [|p b]; auto. rewrite B by (cbn; auto). auto.
Qed.
Lemma contains_tells : forall k t, ordered (elems t) -> tells_of (dict_contains_calls lessk k) t (fun r => r = dict_contains ltk (elems t) k).
Proof.
  intros k t I. unfold dict_contains_calls. eapply g_bind; [apply find_tells; auto|auto|]. intros o H. apply g_ret. split; auto. unfold dict_contains.
  destruct o as [j|]; [destruct H as (a & x & b & _ & _ & ->); auto|destruct H as (-> & _); auto].
Qed.

(** A member that does what [n] does on the sequence, or throws an exception of the client and changes nothing. *)
Definition tries {A} (c : TM S X (K * V) A) t (n : M (list (K * V)) A) : Prop := forall q,
  match c (t, q) with
  | (CRet a, (t', _)) => n (elems t) = (Ok a, elems t')
  | (CThrow (inl e), (t', _)) => t' = t /\ n (elems t) = (Throw e, elems t)
  | (CThrow (inr x), (t', _)) => t' = t /\ may x
  | (CUB _, _) => False
  end.
Lemma t_bind : forall A B (c : TM S X (K * V) A) (f : A -> TM S X (K * V) B) t P n, tells_of c t P -> (forall a, P a -> tries (f a) t n) -> tries (tbind c f) t n.
Proof.
  intros A B c f t P n H I q. unfold tbind. specialize (H q). destruct (c (t, q)) as [[a|[x|x]|u] [t' q']]; auto; try contradiction.
  destruct H as (-> & H). apply (I a H).
Qed.
Lemma t_gives : forall A (c : TM S X (K * V) A) t (n : M (list (K * V)) A), gives c t (fun a t' => n (elems t) = (Ok a, elems t')) -> tries c t n.
Proof. intros A c t n H q. specialize (H q). destruct (c (t, q)) as [[a|[x|x]|u] [t' q']]; auto; contradiction. Qed.

Lemma at_tries : forall k t, ordered (elems t) -> tries (dict_at_calls lessk k) t (fun l => (dict_at ltk l k, l)).
Proof.
  intros k t I. unfold dict_at_calls. eapply t_bind; [apply find_tells; auto|]. intros [j|] H.
  - destruct H as (a & x & b & E & -> & F). apply t_gives. eapply g_bind; [apply (g_elem _ _ t (length a) (k, x)); rewrite E, nth_error_app2, Nat.sub_diag by lia; auto|auto|].
    intros e ->. apply g_ret. unfold dict_at. rewrite F. auto.
  - destruct H as (F & _). intros q. cbn. split; auto. unfold dict_at. rewrite F. auto.
Qed.
Lemma get_tries : forall k x t, ordered (elems t) -> tries (dict_get_calls lessk k x) t (fun l => (dict_get ltk l k x, l)).
Proof.
  intros k x t I. unfold dict_get_calls, dict_get. eapply t_bind; [apply contains_tells; auto|]. intros b ->.
  pose proof (at_tries k t I) as H. destruct (dict_contains ltk (elems t) k) eqn:Q.
  - intros q. specialize (H q). rewrite Q. exact H.
  - intros q. cbn. rewrite Q. auto.
Qed.
Lemma set_tries : forall k x t, ordered (elems t) -> tries (dict_set_calls lessk shape k x) t (dict_set ltk k x).
Proof.
  intros k x t I. unfold dict_set_calls. eapply t_bind; [apply find_tells; auto|]. unfold dict_set. intros [j|] H.
  - destruct H as (a & y & b & E & -> & F). apply t_gives. eapply g_bind; [apply (g_elem _ _ t (length a) (k, y)); rewrite E, nth_error_app2, Nat.sub_diag by lia; auto|auto|].
    intros e ->. eapply g_bind; [apply g_get|auto|]. intros t' ->. eapply g_conseq; [apply (g_change _ shape HS t _ (fun t' => t' = t))| |auto]. cbn beta.
    intros [] t' ->. rewrite update_eq. unfold map_assign. rewrite E in *. change k with (fst (k, y)) at 1. rewrite lower_at by auto. cbn [fst]. rewrite (lt_irr ltk OK).
    rewrite firstn_app, Nat.sub_diag, firstn_all, skipn_app. cbn [firstn]. rewrite (skipn_all2 a) by lia. replace (length a + 1 - length a)%nat with 1%nat by lia.
    cbn. rewrite app_nil_r. auto.
  - destruct H as (_ & N). intros q. cbn [tquiet]. split; auto. rewrite update_eq. unfold map_assign.
    destruct (lower_none k _ I N) as (a & b & -> & _ & _ & B). destruct b as [|p b]; auto. rewrite B by (cbn; auto). auto.
Qed.
Lemma add_tries : forall k x t, ordered (elems t) -> len (elems t) <= INT_MAX -> tries (dict_add_calls lessk shape k x) t (dict_add ltk k x).
Proof.
  intros k x t I L. unfold dict_add_calls. eapply t_bind; [apply g_get|]. intros t' ->. unfold dict_add. destruct (Z.eq_dec (len (elems t)) INT_MAX) as [F|F].
  - intros q. unfold tbind. rewrite size_ok, full_throw by lia. cbn [tquiet]. auto.
  - apply t_gives. eapply g_bind; [apply g_quiet with (a := tt); rewrite size_ok by lia; apply full_ok; lia|auto|]. intros _ _.
    eapply g_conseq; [apply (insert_gives may key lessk ltk shape OK HK MK HS); auto| |auto]. cbn beta. intros b t' (H & _).
    rewrite size_ok, full_ok by lia. rewrite (inserted_map _ _ _ _ _ I H). auto.
Qed.
Lemma remove_tries : forall k t, ordered (elems t) -> tries (dict_remove_calls lessk shape k) t (dict_remove ltk k).
Proof.
  intros k t I. unfold dict_remove_calls, dict_remove. apply t_gives.
  eapply (g_last may _ _ _ _ (fun n => Nat.eqb n 1)); [apply (erase_gives may key lessk ltk shape OK HK MK HS); auto|].
  cbn beta. intros n t' H. unfold map_erase. destruct H as [(-> & a & f & c & Q & <- & Q')|(-> & -> & N)].
  - rewrite Q in *. rewrite lower_at by auto. rewrite (lt_irr ltk OK), Q'. auto.
  - destruct (lower_none k _ I N) as (a & b & -> & _ & _ & B). destruct b as [|p b]; auto. rewrite B by (cbn; auto). auto.
Qed.
Lemma of_tells : forall xs t, tells_of (dict_of_calls lessk shape xs) t (fun n => elems n = dict_of ltk xs).
Proof.
  intros xs t. eapply g_conseq; [apply (g_fresh may) with (G := fun _ => True) (P := fun _ t' => elems t' = dict_of ltk xs)| |auto]; [|cbn; tauto].
  eapply g_conseq; [apply (all_gives may key lessk ltk shape OK HK MK HS xs Leaf)| |auto]; [constructor|]. cbn beta. intros _ t' F. symmetry. apply filled_map; auto. constructor.
Qed.
Lemma same_tells2 : forall l m t, length l = length m -> tells_of (same_calls (pair_eq eqk eqv) l m) t (fun b => b = all2 peb l m).
Proof.
  induction l as [|x l IL]; intros [|y m] t L; try discriminate L; cbn [same_calls all2]; [apply g_ret; auto|].
  eapply g_bind; [apply g_task; [exact eq_honest|exact eq_throws]|auto|]. intros r ->. cbn beta. destruct (ekb (fst x) (fst y) && evb (snd x) (snd y)); [apply IL; auto|apply g_ret; auto].
Qed.
Lemma eq_tells : forall d t, tells_of (dict_eq_calls eqk eqv d) t (fun r => r = dict_eqb ekb evb (elems t) d).
Proof.
  intros b t. unfold dict_eq_calls, dict_eqb, list_eqb. eapply g_bind; [apply g_get|auto|]. intros t' ->. destruct (Nat.eqb_spec (length (elems t)) (length b)).
  - apply same_tells2. auto.
  - apply g_ret. auto.
Qed.

(** keys(), values(), items() *)
Lemma adds_run : forall F (less : F -> F -> call S X bool) (lt : F -> F -> bool) (sh : tree F -> list F -> tree F) (f : K * V -> F),
  strict_total lt -> honest less lt -> (forall x, throws less x -> may x) -> keeps sh ->
  forall d (w : tree F), increasing lt (elems w) -> len (elems w) + len d <= INT_MAX ->
  TreeFacts.runs may (add_all_calls less sh f d) w (fun _ w' => add_all lt f d (elems w) = Ok (elems w')) (fun _ => True).
Proof.
  intros F less lt sh f O H M HW. induction d as [|p d IH]; intros w I L; cbn [add_all_calls add_all].
  - apply g_ret. auto.
  - rewrite len_cons in L. pose proof (len_nonneg _ d). assert (LW: len (elems w) < INT_MAX) by lia.
    eapply g_seq with (P := fun b w' => std_insert lt (f p) (elems w) = (b, elems w')).
    + eapply g_conseq; [apply (add_gives may less lt (fun _ => []) sh O H M HW); auto|auto|auto].
    + intros b w' E. destruct (insert_ok lt O (f p) _ I) as (I' & _). pose proof (insert_len lt O (f p) _ I) as L'. rewrite E in I', L'. cbn [snd] in *.
      eapply g_conseq; [apply IH; auto; lia| |auto]. cbn beta. intros _ w2 A. unfold set_add. rewrite size_ok, full_ok, E by lia. auto.
Qed.
Lemma made_tells2 : forall F (c : TM S X F unit) t (r : outcome (list F)),
  TreeFacts.runs may c Leaf (fun _ w => r = Ok (elems w)) (fun _ => True) -> tells_of (fresh c) t (fun n => r = Ok (elems n)).
Proof. intros F c t r R. eapply g_conseq; [apply (g_fresh may) with (G := fun _ => True); exact R|auto|auto]. Qed.
Lemma keys_tells : forall t, len (elems t) <= INT_MAX -> tells_of (dict_keys_calls lessk shapek) t (fun n => dict_keys ltk (elems t) = Ok (elems n)).
Proof.
  intros t L. unfold dict_keys_calls. eapply g_bind; [apply g_get|auto|]. intros t' ->. apply made_tells2.
  apply (adds_run _ lessk ltk shapek fst OK HK MK HSK _ Leaf); [constructor|]. cbn. auto.
Qed.
Lemma values_tells : forall t, len (elems t) <= INT_MAX -> tells_of (dict_values_calls lessv shapev) t (fun n => dict_values ltv (elems t) = Ok (elems n)).
Proof.
  intros t L. unfold dict_values_calls. eapply g_bind; [apply g_get|auto|]. intros t' ->. apply made_tells2.
  apply (adds_run _ lessv ltv shapev snd OV HV MV HSV _ Leaf); [constructor|]. cbn. auto.
Qed.
Lemma items_tells : forall t, len (elems t) <= INT_MAX -> tells_of (dict_items_calls lessk lessv shape) t (fun n => dict_items ltk ltv (elems t) = Ok (elems n)).
Proof.
  intros t L. unfold dict_items_calls. eapply g_bind; [apply g_get|auto|]. intros t' ->. apply made_tells2.
  apply (adds_run _ (pair_less lessk lessv) (pair_lt ltk ltv) shape (fun p => p) (pair_total ltk ltv OK OV) pair_honest pair_throws HS _ Leaf); [constructor|]. cbn. auto.
Qed.

(** ** Programs *)
Notation look s := (fun v => elems (s v)).
Notation gstep := (gstep lessk eqk lessv eqv showk showv shape shapek shapev).
Notation mstep := (mstep ltk ekb ltv evb showk showv).

Definition gends (c : mstmt K V) (s : cstore (K * V)) (r : outcome ((cstore (K * V) * S) * list (cevent X (mevent K V)))) : Prop :=
  (exists s' q' s1 ev, mstep c (look s) = Ok (s1, ev) /\ r = Ok ((s', q'), map Plain ev) /\ forall w, elems (s' w) = s1 w) \/
  (exists s' q' x, mcompares c = true /\ may x /\ r = Ok ((s', q'), [Caught x]) /\ forall w, elems (s' w) = elems (s w)) \/
  (exists s' q' x v xs a y b, (c = MExtend v xs \/ exists w, v <> w /\ c = MExtendDict v w /\ xs = elems (s w)) /\ xs = a ++ y :: b /\
     may x /\ r = Ok ((s', q'), [Caught x]) /\ len (elems (s v)) + len xs <= INT_MAX /\
     forall w, elems (s' w) = mset (look s) v (map_insert_range ltk a (elems (s v))) w) \/
  (exists u, mstep c (look s) = UB u /\ r = UB u).

Lemma look_mset : forall (s : cstore (K * V)) v t w, elems (cset s v t w) = mset (look s) v (elems t) w.
Proof. intros s v t w. unfold cset, mset. destruct (Nat.eqb w v); auto. Qed.
Lemma mset_same : forall (s : mstore K V) v l w, l = s v -> mset s v l w = s w.
Proof. intros s v l w ->. unfold mset. destruct (Nat.eqb_spec w v); subst; auto. Qed.

Lemma gends_call : forall A (c : mstmt K V) (s : cstore (K * V)) q v (m : TM S X (K * V) A) (n : M (list (K * V)) A) (out : A -> list (mevent K V)),
  mcompares c = true -> mstep c (look s) = mcall (look s) v n out -> tries m (s v) n -> gends c s (gcall s q v m kept out).
Proof.
  intros A c s q v m n out C E G; unfold gcall; unfold mcall in E. specialize (G q). destruct (m (s v, q)) as [[a|[x|x]|u] [t' q']]; try contradiction.
  - rewrite G in E. left. do 4 eexists. split; [eassumption|]. split; [reflexivity|]. intros w. apply look_mset.
  - destruct G as (-> & G). rewrite G in E. left. do 4 eexists. split; [eassumption|]. split; [reflexivity|]. intros w. apply look_mset.
  - destruct G as (-> & G). right. left. do 3 eexists. split; auto. split; eauto. split; [reflexivity|]. intros w. rewrite look_mset. apply mset_same. auto.
Qed.
Lemma gends_emit : forall A (c : mstmt K V) (s : cstore (K * V)) q v (m : TM S X (K * V) A) (n : list (K * V) -> outcome A) (out : A -> list (mevent K V)),
  mcompares c = true -> mstep c (look s) = memit (look s) (n (elems (s v))) out -> tries m (s v) (fun l => (n l, l)) -> gends c s (gcall s q v m kept out).
Proof.
  intros A c s q v m n out C E G; unfold gcall; unfold memit in E. specialize (G q). cbn beta in G. destruct (m (s v, q)) as [[a|[x|x]|u] [t' q']]; try contradiction.
  - injection G as G1 G2. rewrite G1 in E. left. do 4 eexists. split; [eassumption|]. split; [reflexivity|]. intros w. unfold kept. rewrite look_mset. apply mset_same. auto.
  - destruct G as (-> & G). injection G as G. rewrite G in E. left. do 4 eexists. split; [eassumption|]. split; [reflexivity|]. intros w. rewrite look_mset. apply mset_same. auto.
  - destruct G as (-> & G). right. left. do 3 eexists. split; auto. split; eauto. split; [reflexivity|]. intros w. rewrite look_mset. apply mset_same. auto.
Qed.
Lemma gends_look : forall A B (c : mstmt K V) (s : cstore (K * V)) q v (m : TM S X (K * V) A) (P : A -> B) (o : outcome B) (out : B -> list (mevent K V)),
  mcompares c = true -> mstep c (look s) = memit (look s) o out -> tells_of m (s v) (fun a => o = Ok (P a)) -> gends c s (gcall s q v m kept (fun a => out (P a))).
Proof.
  intros A B c s q v m P o out C E G; unfold gcall; unfold memit in E. specialize (G q). destruct (m (s v, q)) as [[a|[x|x]|u] [t' q']]; try contradiction.
  - destruct G as (-> & ->). left. do 4 eexists. split; [eassumption|]. split; [reflexivity|]. intros w. unfold kept. rewrite look_mset. apply mset_same. auto.
  - destruct G as (-> & G). right. left. do 3 eexists. split; auto. split; eauto. split; [reflexivity|]. intros w. rewrite look_mset. apply mset_same. auto.
Qed.
Lemma gends_plain : forall A (c : mstmt K V) (s : cstore (K * V)) q v (n : M (list (K * V)) A) (out : A -> list (mevent K V)),
  mstep c (look s) = mcall (look s) v n out -> (forall l e l', n l = (Throw e, l') -> l' = l) -> (forall l l', n l <> (OutOfFuel, l')) ->
  gends c s (gcall s q v (set_plain shape n) kept out).
Proof.
  intros A c s q v n out E H1 H2. unfold gcall, set_plain. cbn [fst snd]. unfold mcall in E. destruct (n (elems (s v))) as [[a|e|u|] l'] eqn:Q; cbn [tquiet].
  - left. do 4 eexists. split; [eassumption|]. split; [reflexivity|]. intros w. unfold kept. rewrite look_mset, HS. auto.
  - apply H1 in Q. subst l'. left. do 4 eexists. split; [eassumption|]. split; [reflexivity|]. intros w. rewrite look_mset. auto.
  - right. right. right. eauto.
  - exfalso. eapply H2; eauto.
Qed.
Lemma gends_quiet : forall A (c : mstmt K V) (s : cstore (K * V)) q v (o : outcome A) (out : A -> list (mevent K V)),
  mstep c (look s) = memit (look s) o out -> o <> OutOfFuel -> gends c s (gcall s q v (tquiet o) kept out).
Proof.
  intros A c s q v o out E N. unfold gcall. unfold memit in E. destruct o as [a|e|u|]; cbn [tquiet]; try contradiction.
  - left. do 4 eexists. split; [eassumption|]. split; [reflexivity|]. intros w. unfold kept. rewrite look_mset. apply mset_same. auto.
  - left. do 4 eexists. split; [eassumption|]. split; [reflexivity|]. intros w. rewrite look_mset. apply mset_same. auto.
  - right. right. right. eauto.
Qed.
Lemma gends_guard : forall (c : mstmt K V) (s : cstore (K * V)) q n l r k, mstep c (look s) = mguard (look s) n l k ->
  (n <=? INT_MAX - size l = true -> mstep c (look s) = k -> gends c s r) -> gends c s (gguard s q n l r).
Proof.
  intros c s q n l r k E H. unfold gguard, mguard in *. destruct (n <=? INT_MAX - size l); auto.
  left. do 4 eexists. split; [eassumption|]. split; [reflexivity|]. auto.
Qed.
Lemma gends_extend : forall (c : mstmt K V) (s : cstore (K * V)) q v xs, ordered (elems (s v)) -> len (elems (s v)) + len xs <= INT_MAX ->
  (c = MExtend v xs \/ exists w, v <> w /\ c = MExtendDict v w /\ xs = elems (s w)) ->
  mstep c (look s) = mcall (look s) v (dict_extend ltk xs) msilent ->
  gends c s (gcall s q v (dict_extend_calls lessk shape xs) kept gmute).
Proof.
  intros c s q v xs I L C E. unfold gcall, dict_extend_calls. unfold mcall, dict_extend in E. rewrite update_eq in E.
  pose proof (all_gives may key lessk ltk shape OK HK MK HS xs (s v) I q) as G.
  destruct (insert_all key lessk shape xs (s v, q)) as [[a|[x|x]|u] [t' q']]; try contradiction.
  - apply filled_map in G; auto. left. do 4 eexists. split; [eassumption|]. split; [reflexivity|]. intros w. unfold kept. rewrite look_mset, G. auto.
  - destruct G as ((a & y & b & Q & G) & M). apply filled_map in G; auto. right. right. left. exists (cset s v t'), q', x, v, xs, a, y, b. rewrite G.
    repeat match goal with |- _ /\ _ => split end; auto. intros w. apply look_mset.
Qed.

Lemma gstep_ends : forall c s q e, gstands ltk s e -> gends c s (gstep c (s, q)).
Proof.
  intros c s q e W.
  assert (SL: forall v, len (elems (s v)) <= INT_MAX) by (intros v; apply (W v)).
  assert (SI: forall v, ordered (elems (s v))) by (intros v; apply (W v)).
  assert (SZ: forall v, size (elems (s v)) = len (elems (s v))) by (intros v; apply size_ok; auto).
  destruct c; cbn [DictTreeModel.gstep].
  - unfold gcall. pose proof (of_tells xs (s v) q) as G. destruct (dict_of_calls lessk shape xs (s v, q)) as [[n|[x|x]|u] [t' q']]; try contradiction.
    + destruct G as (-> & G). left. do 4 eexists. split; [reflexivity|]. split; [reflexivity|]. intros w. unfold saved. rewrite look_mset, <- G.
      unfold mset. destruct (Nat.eqb w v) eqn:Q; auto. unfold cset. rewrite Q. auto.
    + destruct G as (-> & G). right. left. do 3 eexists. split; auto. split; eauto. split; [reflexivity|]. intros w. rewrite look_mset. apply mset_same. auto.
  - left. do 4 eexists. split; [reflexivity|]. split; [reflexivity|]. intros u. apply look_mset.
  - destruct (Nat.eqb v w) eqn:Q.
    + right. right. right. exists SelfRange. cbn [DictModel.mstep]. rewrite Q. auto.
    + left. cbn [DictModel.mstep]. rewrite Q. do 4 eexists. split; [reflexivity|]. split; [reflexivity|]. intros u. rewrite look_mset. unfold mset. destruct (Nat.eqb u w); auto. apply look_mset.
  - apply (gends_emit _ _ s q v _ (fun l => dict_at ltk l k)); auto. apply at_tries; auto.
  - apply (gends_call _ _ s q v _ (dict_set ltk k x)); auto. apply set_tries; auto.
  - apply (gends_emit _ _ s q v _ (fun l => dict_get ltk l k x)); auto. apply get_tries; auto.
  - apply (gends_look _ _ _ s q v _ (fun b => b) (Ok (dict_contains ltk (elems (s v)) k)) (fun b => [MBool b])); auto.
    eapply g_conseq; [apply contains_tells; auto| |auto]. cbn beta. intros a t' (A & ->). auto.
  - apply (gends_call _ _ s q v _ (dict_add ltk k x)); auto. apply add_tries; auto.
  - apply (gends_call _ _ s q v _ (dict_remove ltk k)); auto. apply remove_tries; auto.
  - apply (gends_plain _ _ s q v dict_pop); auto.
    + intros l x l'. unfold dict_pop. destruct (check_empty (size l)); [destruct l| | |]; intros Q; inversion Q; auto.
    + intros l l'. unfold dict_pop, check_empty. destruct (size l =? 0); [|destruct l]; discriminate.
  - eapply gends_guard; [reflexivity|]. intros L E. apply gends_extend; auto. rewrite SZ in L. apply Z.leb_le in L. lia.
  - eapply gends_guard; [reflexivity|]. intros L E. destruct (Nat.eqb_spec v w) as [->|N].
    + right. right. right. eauto.
    + apply gends_extend; auto; [|eauto]. rewrite !SZ in L. apply Z.leb_le in L. lia.
  - apply (gends_plain _ _ s q v dict_clear); auto; unfold dict_clear; intros l; [intros x|]; intros l'; rewrite update_eq; discriminate.
  - apply gends_quiet; auto. unfold dict_min. destruct (elems (s v)); discriminate.
  - apply gends_quiet; auto. unfold dict_max. destruct (rev _); discriminate.
  - apply (gends_look _ _ _ s q v _ elems (dict_keys ltk (elems (s v))) (map MKey)); auto. apply keys_tells; auto.
  - apply (gends_look _ _ _ s q v _ elems (dict_values ltv (elems (s v))) (map MVal)); auto. apply values_tells; auto.
  - apply (gends_look _ _ _ s q v _ elems (dict_items ltk ltv (elems (s v))) (map MPair)); auto. apply items_tells; auto.
  - left. do 4 eexists. split; [reflexivity|]. split; [reflexivity|]. auto.
  - left. do 4 eexists. split; [reflexivity|]. split; [reflexivity|]. auto.
  - apply (gends_look _ _ _ s q v _ (fun b => b) (Ok (dict_eqb ekb evb (elems (s v)) (elems (s w)))) (fun b => [MBool b])); auto.
    eapply g_conseq; [apply eq_tells; auto| |auto]. cbn beta. intros a t' (A & ->). auto.
  - left. do 4 eexists. split; [reflexivity|]. split; [reflexivity|]. auto.
  - left. do 4 eexists. split; [reflexivity|]. split; [reflexivity|]. auto.
Qed.

Lemma gstands_ext : forall (s : cstore (K * V)) s1 e, mstands ltk s1 e -> (forall w, elems (s w) = s1 w) -> gstands ltk s e.
Proof. intros s s1 e W E v. cbn beta. rewrite E. apply W. Qed.

Theorem gstep_ok : forall c s q e, gstands ltk s e -> mint_stmt c ->
  match gstep c (s, q) with
  | Ok ((s', _), ev) => exists e', gcstep ltk ltv showk showv may c e e' ev /\ gstands ltk s' e'
  | UB _ => mundef c (look s)
  | _ => False
  end.
Proof.
  intros c s q e W A. destruct (gstep_ends c s q e W) as [(s' & q' & s1 & ev & E & -> & L)|[(s' & q' & x & C & M & -> & L)|[(s' & q' & x & v & xs & a & y & b & C & Q & M & -> & N & L)|(u & E & ->)]]].
  - assert (R: mrun ltk ekb ltv evb showk showv [c] (look s) = Ok (s1, ev ++ [])) by (cbn [mrun]; rewrite E; auto).
    apply (mrun_refines ltk ekb ltv evb showk showv OK OV DK DV) with (e := e) in R; auto. destruct R as (e' & R & W'). rewrite app_nil_r in R.
    assert (Z: fstep ltk ltv showk showv c e e' ev).
    { inversion R as [|c' r' e0 e1 e2 ev1 ev2 P P' EQ1 EQ2 EQ3 EQ4]. inversion P'. subst. rewrite app_nil_r. auto. }
    exists e'. split; [constructor; auto|eapply gstands_ext; eauto].
  - exists e. split; [constructor; auto|]. eapply gstands_ext; eauto.
  - destruct (range_ok ltk OK a (elems (s v)) (e v)) as (m & EX & LI & LE); [apply (W v)|].
    assert (W': gstands ltk s' (fset e v m)).
    { eapply gstands_ext; [|exact L]. apply (mstands_set ltk); auto. subst xs. unfold len in *. rewrite app_length in N. cbn [length] in N. lia. }
    exists (fset e v m). split; auto. destruct C as [->|(w & VW & -> & ->)].
    + rewrite Q. econstructor; eauto.
    + eapply gc_extend_dict; eauto. rewrite <- Q. apply (W w).
  - apply (mundef_exact K V ltk ekb ltv evb showk showv c (look s) e); eauto.
Qed.

Theorem grun_ok : forall prog s q e, gstands ltk s e -> Forall mint_stmt prog ->
  match grun lessk eqk lessv eqv showk showv shape shapek shapev prog (s, q) with
  | Ok ((s', _), ev) => exists e', gcrun ltk ltv showk showv may prog e e' ev /\ gstands ltk s' e'
  | UB _ => exists c, In c prog /\ ((exists v, c = MMove v v) \/ (exists v, c = MExtendDict v v) \/ (exists v, c = MMin v \/ c = MMax v))
  | _ => False
  end.
Proof.
  induction prog as [|c prog IH]; intros s q e W A; cbn [grun].
  - exists e. split; [constructor|auto].
  - inversion A as [|? ? A1 A2]; subst. pose proof (gstep_ok c s q e W A1) as H. destruct (gstep c (s, q)) as [[[s1 q1] ev]|x|u|]; cbn [bind fst snd]; try contradiction.
    + destruct H as (e1 & H1 & W1). specialize (IH s1 q1 e1 W1 A2). destruct (grun lessk eqk lessv eqv showk showv shape shapek shapev prog (s1, q1)) as [[[s2 q2] ev2]|x|u|]; cbn [bind fst snd]; try contradiction.
      * destruct IH as (e2 & H2 & W2). exists e2. split; auto. econstructor; eauto.
      * destruct IH as (c' & I & R). exists c'. split; auto. cbn. auto.
    + exists c. split; [cbn; auto|]. destruct c; cbn [mundef] in H; try contradiction; [subst; left; eauto|destruct H; subst; right; left; eauto|right; right; eauto|right; right; eauto].
Qed.
End Dict_.
