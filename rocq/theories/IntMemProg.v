(** Programs over [Int] variables when memory may run out. *)
From Coq Require Import ZArith List Bool Ascii Lia.
From Verif Require Import Outcome IntModel IntSpec IntBase IntAddSub IntMulDiv IntIO IntFuncs IntPolicy
  Show ShowFacts IntProgModel IntProgSpec IntProg IntMemModel IntMemSpec IntMemFacts IntMem IntMemSem.
Import ListNotations.
Open Scope Z_scope.

(** ** More fuel changes nothing but a lack of fuel *)

Definition more {A} (m m' : am A) : Prop := forall k, fst (m k) <> MFail FFuel -> m' k = m k.

Lemma more_refl : forall A (m : am A), more m m.
Proof. intros A m k _. reflexivity. Qed.
Lemma more_fuel : forall A (m : am A), more (afail FFuel) m.
Proof. intros A m k H. destruct (H eq_refl). Qed.
Lemma more_bind : forall A B (m m' : am A) (f f' : A -> am B), more m m' -> (forall a, more (f a) (f' a)) ->
  more (abind m f) (abind m' f').
Proof.
  intros A B m m' f f' H K k N. unfold abind in *. rewrite (H k).
  - destruct (m k) as [[a|e] k1]; [|reflexivity]. apply K. exact N.
  - intros E. apply N. destruct (m k) as [r k1]. cbn in E. subst r. reflexivity.
Qed.
Lemma more_if : forall A (b : bool) (m m' n n' : am A), more m m' -> more n n' -> more (if b then m else n) (if b then m' else n').
Proof. intros A [|]; auto. Qed.

Ltac more1 IH :=
  lazymatch goal with
  | |- more ?a ?a => apply more_refl
  | |- more (abind _ _) (abind _ _) => apply more_bind; [|intros ?]
  | |- more (if _ then _ else _) (if _ then _ else _) => apply more_if
  | |- _ => apply IH; lia
  end.

Section Stable.
Variable grow : nat -> nat -> nat.
Variable ok : nat -> bool.
Variable p : policy.

Ltac by_rounds L :=
  intros f; induction f as [|f IH]; intros f' Hf; intros; [apply more_fuel|];
  destruct f' as [|f']; [lia|]; cbn [L]; repeat more1 IH.

Lemma factorial_more : forall f f', (f <= f')%nat -> forall i r, more (m_factorial_loop ok p f i r) (m_factorial_loop ok p f' i r).
Proof. by_rounds m_factorial_loop. Qed.
Lemma prime_more : forall f f', (f <= f')%nat -> forall x i, more (m_prime_loop grow ok p f x i) (m_prime_loop grow ok p f' x i).
Proof. by_rounds m_prime_loop. Qed.
Lemma is_prime_more : forall f f', (f <= f')%nat -> forall x, more (m_is_prime grow ok p f x) (m_is_prime grow ok p f' x).
Proof. intros f f' Hf x. unfold m_is_prime. repeat more1 prime_more. Qed.
Lemma next_prime_loop_more : forall f f', (f <= f')%nat -> forall g g', (g <= g')%nat -> forall x,
  more (m_next_prime_loop grow ok p f g x) (m_next_prime_loop grow ok p f' g' x).
Proof.
  intros f; induction f as [|f IH]; intros f' Hf g g' Hg x; [apply more_fuel|].
  destruct f' as [|f']; [lia|]; cbn [m_next_prime_loop].
  apply more_bind; [apply more_refl|intros p1]. apply more_bind; [apply more_refl|intros p2].
  apply more_bind; [apply is_prime_more; exact Hg|intros b]. apply more_if; [apply more_refl|]. apply IH; lia.
Qed.
Lemma sqrt_more : forall f f', (f <= f')%nat -> forall n c q, more (m_sqrt_loop grow ok p f n c q) (m_sqrt_loop grow ok p f' n c q).
Proof. by_rounds m_sqrt_loop. Qed.
Lemma pow_more : forall f f', (f <= f')%nat -> forall m b n r, more (m_pow_loop grow ok p f m b n r) (m_pow_loop grow ok p f' m b n r).
Proof. by_rounds m_pow_loop. Qed.
Lemma log_more : forall f f', (f <= f')%nat -> forall v b r, more (m_log_loop grow ok p f v b r) (m_log_loop grow ok p f' v b r).
Proof. by_rounds m_log_loop. Qed.
Lemma gcd_loop_more : forall f f', (f <= f')%nat -> forall a b, more (m_gcd_loop grow ok p f a b) (m_gcd_loop grow ok p f' a b).
Proof. by_rounds m_gcd_loop. Qed.
Lemma gcd_more : forall f f', (f <= f')%nat -> forall a b, more (m_gcd grow ok p f a b) (m_gcd grow ok p f' a b).
Proof. intros f f' Hf a b. unfold m_gcd. repeat more1 gcd_loop_more. Qed.
Lemma m_pow_more : forall f f', (f <= f')%nat -> forall b e m, more (m_pow grow ok p f b e m) (m_pow grow ok p f' b e m).
Proof. intros f f' Hf b e m. unfold m_pow. repeat more1 pow_more. Qed.

Lemma un_more : forall f f', (f <= f')%nat -> forall o x, more (m_un grow ok p f o x) (m_un grow ok p f' o x).
Proof.
  intros f f' Hf [] x; cbn [m_un]; try apply more_refl.
  - unfold m_factorial. repeat more1 factorial_more.
  - unfold m_next_prime. repeat (lazymatch goal with |- more (m_next_prime_loop _ _ _ _ _ _) _ => apply next_prime_loop_more; lia | _ => more1 next_prime_loop_more end).
  - unfold m_sqrt. repeat more1 sqrt_more.
Qed.
Lemma binary_more : forall f f', (f <= f')%nat -> forall o x y, more (m_binary grow ok p f o x y) (m_binary grow ok p f' o x y).
Proof.
  intros f f' Hf [] x y; cbn [m_binary]; try apply more_refl.
  - apply m_pow_more. exact Hf.
  - unfold m_log. repeat more1 log_more.
  - apply gcd_more. exact Hf.
  - unfold m_lcm. repeat more1 gcd_more.
Qed.
Lemma query_more : forall f f', (f <= f')%nat -> forall o x, more (m_query grow ok p f o x) (m_query grow ok p f' o x).
Proof. intros f f' Hf [] x; cbn [m_query]; try apply more_refl. apply is_prime_more. exact Hf. Qed.
End Stable.

(** ** Statements *)

Lemma stands_set : forall s e v x z, stands s e -> repr (forget x) z -> fits x -> stands (mset s v x) (zset e v z).
Proof. intros s e v x z H R F w. unfold mset, zset. destruct (Nat.eqb w v); auto. Qed.
Lemma stands_set_same : forall s e v x, stands s e -> repr (forget x) (e v) -> fits x -> stands (mset s v x) e.
Proof. intros s e v x H R F w. unfold mset. destruct (Nat.eqb_spec w v); [subst; auto|apply H]. Qed.

Section Programs.
Variable grow : nat -> nat -> nat.
Variable ok : nat -> bool.

Local Notation step f c s k := (mstep grow ok Benign f c s k).

Definition fine (c : stmt) (e : zstore) (k : nat) (r : mstore * nat * list mevent) : Prop :=
  exists e', stands (fst (fst r)) e' /\ (k <= snd (fst r))%nat /\
    ((plenty ok k (snd (fst r)) /\ exists ev, zstep c e e' ev /\ snd r = map ME ev) \/
     (short ok k (snd (fst r)) /\ snd r = [MEBadAlloc] /\ zmstep c e e' [MEBadAlloc])).
Definition wrecked (c : stmt) (e : zstore) (k : nat) (r : mstore * nat * list mevent) : Prop :=
  exists v sg, zwreck c e v sg /\ wreck (fst (fst r) v) sg /\ fits (fst (fst r) v) /\
    (forall w, w <> v -> repr (forget (fst (fst r) w)) (e w) /\ fits (fst (fst r) w)) /\
    short ok k (snd (fst r)) /\ snd r = [MEBadAlloc].

Lemma short_lt : forall k k', short ok k k' -> (k <= k')%nat.
Proof. intros k k' (j & J & _). lia. Qed.

(** [v = f(...)] *)
Lemma store_step : forall c v (m : nat -> am MInt) (o : nat -> outcome Int) z e s k, stands s e ->
  (forall f, gives ok is_int (m f) (o f)) -> (forall f f', (f <= f')%nat -> more (m f) (m f')) -> meets o z ->
  (forall y, z = inl y -> zstep c e (zset e v y) []) -> (forall x, z = inr x -> zstep c e e [EThrow x]) ->
  indirect c = true ->
  exists n r, (forall fuel, (n <= fuel)%nat -> store_in v (m fuel) s k = Ok r) /\ fine c e k r.
Proof.
  intros c v m o z e s k H G Mo Me Z1 Z2 Ind.
  assert (exists n b, o n = b /\ b <> OutOfFuel /\ match z with inl y => exists x, b = Ok x /\ repr x y | inr x => b = Throw x end) as (n & b & On & Nb & Hz).
  { destruct z as [y|x]; cbn [meets] in Me.
    - destruct Me as (x & [N (n & C)] & R). exists n, (Ok x). rewrite C by lia. eauto.
    - destruct Me as [N (n & C)]. exists n, (Throw x). rewrite C by lia. auto. }
  pose proof (G n k) as Gk. assert (St : forall fuel, (n <= fuel)%nat -> fst (m n k) <> MFail FFuel -> m fuel k = m n k) by (intros fuel Hf Nf; apply (Mo n fuel Hf k Nf)).
  unfold store_in. destruct (m n k) as [[x|f] k'] eqn:E.
  - destruct Gk as (L & P & r & Er & [Fx Ft]). rewrite On in Er. clear On. subst b.
    exists n, (mset s v x, k', []). split; [intros fuel Hf; rewrite St by (auto; discriminate); reflexivity|].
    destruct z as [y|ex]; [|discriminate Hz]. destruct Hz as (x0 & Ex & R). inversion Ex; subst.
    exists (zset e v y). cbn [fst snd]. split; [apply stands_set; assumption|]. split; [exact L|]. left. split; [exact P|].
    exists []. split; [apply Z1; reflexivity|reflexivity].
  - destruct f as [|ex|u|].
    + exists n, (s, k', [MEBadAlloc]). split; [intros fuel Hf; rewrite St by (auto; discriminate); reflexivity|].
      exists e. cbn [fst snd]. split; [exact H|]. split; [exact (short_lt _ _ Gk)|]. right. split; [exact Gk|]. split; [reflexivity|].
      apply zm_indirect. exact Ind.
    + destruct Gk as (L & P & Er). cbn in Er. rewrite On in Er. clear On. subst b.
      exists n, (s, k', [ME (EThrow ex)]). split; [intros fuel Hf; rewrite St by (auto; discriminate); reflexivity|].
      destruct z as [y|x]; [destruct Hz as (x0 & Ex & R); discriminate|]. inversion Hz; subst.
      exists e. cbn [fst snd]. split; [exact H|]. split; [exact L|]. left. split; [exact P|].
      exists [EThrow x]. split; [apply Z2; reflexivity|reflexivity].
    + exfalso. destruct Gk as (_ & _ & Er). cbn in Er. rewrite On in Er. clear On. subst b.
      destruct z as [y|x]; [destruct Hz as (x0 & Ex & R)|]; discriminate.
    + exfalso. destruct Gk as (_ & _ & Er). cbn in Er. congruence.
Qed.

(** A member function called on a variable *)
Lemma call_step : forall c v m o (H : MInt -> Prop) e s k, stands s e -> does ok (s v) m o H ->
  ((exists x z, o = Ok x /\ repr x z /\ zstep c e (zset e v z) []) \/ (exists x, o = Throw x /\ zstep c e e [EThrow x])) ->
  (forall x', H x' -> (exists a, repr (forget x') a /\ (zmstep c e (zset e v a) [MEBadAlloc] \/ (a = e v /\ zmstep c e e [MEBadAlloc]))) \/
     (exists sg, zwreck c e v sg /\ wreck x' sg)) ->
  exists r, call_on v m s k = Ok r /\ (fine c e k r \/ wrecked c e k r).
Proof.
  intros c v m o H e s k St D Z Hm. pose proof (D k) as Dk. unfold call_on. destruct (m (s v, k)) as [[u|f] [x' k']].
  - destruct Dk as (L & P & r & Er & [Fx Ft]). destruct Z as [(x & z & Eo & R & Zs)|(x & Eo & _)]; [|congruence].
    eexists. split; [reflexivity|]. left. exists (zset e v z). cbn [fst snd].
    assert (r = x) by congruence. subst.
    split; [apply stands_set; assumption|]. split; [exact L|]. left. split; [exact P|]. exists []. auto.
  - destruct f as [|ex|u|].
    + destruct Dk as (Sh & Ft & Hx). cbn [seen bind]. eexists. split; [reflexivity|].
      destruct (Hm x' Hx) as [(a & R & Q)|(sg & W1 & W2)].
      * left. destruct Q as [Q|[-> Q]]; [exists (zset e v a)|exists e]; cbn [fst snd].
        -- split; [apply stands_set; assumption|]. split; [exact (short_lt _ _ Sh)|]. right. auto.
        -- split; [apply stands_set_same; assumption|]. split; [exact (short_lt _ _ Sh)|]. right. auto.
      * right. exists v, sg. cbn [fst snd]. unfold mset. rewrite Nat.eqb_refl. split; [exact W1|]. split; [exact W2|]. split; [exact Ft|].
        split; [|auto]. intros w Nw. destruct (Nat.eqb_spec w v); [contradiction|apply St].
    + destruct Dk as (L & P & M & ->). cbn in M. destruct Z as [(x & z & Eo & _)|(x & Eo & Zs)]; [congruence|].
      assert (x = ex) by congruence. subst. cbn [seen bind]. eexists. split; [reflexivity|]. left. exists e. cbn [fst snd].
      split; [apply stands_set_same; [exact St| |]; apply St|]. split; [exact L|]. left. split; [exact P|]. exists [EThrow ex]. auto.
    + exfalso. destruct Dk as (_ & _ & M & _). cbn in M. destruct Z as [(x & z & Eo & _)|(x & Eo & _)]; congruence.
    + exfalso. destruct Dk as (_ & _ & M & _). cbn in M. destruct Z as [(x & z & Eo & _)|(x & Eo & _)]; congruence.
Qed.

Lemma pure_step : forall A c (f : A -> event) (o : outcome A) a e s k, stands s e -> o = Ok a -> zstep c e e [f a] ->
  exists r, emit f (alift o) s k = Ok r /\ fine c e k r.
Proof.
  intros A c f o a e s k St -> Zs. eexists. split; [reflexivity|]. exists e. cbn [fst snd]. split; [exact St|]. split; [lia|].
  left. split; [apply plenty_nil|]. exists [f a]. auto.
Qed.

Lemma always : forall c k e (X : outcome (mstore * nat * list mevent)), (exists r, X = Ok r /\ (fine c e k r \/ wrecked c e k r)) ->
  exists n r, (forall fuel, (n <= fuel)%nat -> X = Ok r) /\ (fine c e k r \/ wrecked c e k r).
Proof. intros c k e X (r & E & F). exists O, r. auto. Qed.

Lemma mstep_spec : forall c e s k, stands s e -> allowed c e ->
  exists n r, (forall fuel, (n <= fuel)%nat -> step fuel c s k = Ok r) /\ (fine c e k r \/ wrecked c e k r).
Proof.
  assert (ST : forall c v m o z e s k, stands s e -> (forall f, gives ok is_int (m f) (o f)) -> (forall f f', (f <= f')%nat -> more (m f) (m f')) -> meets o z ->
    (forall y, z = inl y -> zstep c e (zset e v y) []) -> (forall x, z = inr x -> zstep c e e [EThrow x]) -> indirect c = true ->
    exists n r, (forall fuel, (n <= fuel)%nat -> store_in v (m fuel) s k = Ok r) /\ (fine c e k r \/ wrecked c e k r)).
  { intros c v m o z e s k H G Mo Me Z1 Z2 Ind. destruct (store_step c v m o z e s k H G Mo Me Z1 Z2 Ind) as (n & r & E & F). eauto. }
  intros c e s k H A. destruct c; cbn [mstep].
  - apply (ST _ _ (fun _ => m_of_int grow ok n) (fun _ => int_of_int n) (inl n)); auto.
    + intros _. apply of_int_gives.
    + intros. apply more_refl.
    + apply computes_const. apply int_of_int_spec. exact A.
    + intros y E. inversion E; subst. apply z_int. exact A.
    + discriminate.
  - apply (ST _ _ (fun _ => m_of_chars grow ok cs) (fun _ => int_of_chars cs) (match literal cs with Some z => inl z | None => inr WrongIntegerLiteral end)); auto.
    + intros _. apply of_chars_gives.
    + intros. apply more_refl.
    + destruct (literal cs) eqn:L; [apply computes_const, int_of_chars_ok; exact L|].
      cbn [meets]. rewrite int_of_chars_bad by exact L. apply conv_const. discriminate.
    + intros y E. destruct (literal cs) eqn:L; [|discriminate]. inversion E; subst. apply z_chars. exact L.
    + intros x E. destruct (literal cs) eqn:L; [discriminate|]. inversion E; subst. apply z_chars_bad. exact L.
  - apply always. destruct (H v) as [Rv Fv]. destruct (H w) as [Rw Fw].
    destruct (call_step (SCopy v w) v _ _ _ e s k H (copy_harm ok _ _ _ _ Fv Rv Rw)) as (r & E & F).
    + left. exists (forget (s w)), (e w). split; [reflexivity|]. split; [exact Rw|]. apply z_copy.
    + cbv beta. intros x' [(Nv & Nw & R)|(Zv & Nw & W)].
      * left. eexists. split; [exact R|]. left. apply zm_copy; assumption.
      * right. eexists. split; [|exact W]. apply zw_copy; assumption.
    + exists r. auto.
  - apply always. cbn [allowed] in A. cbn [mstep]. destruct (Nat.eqb_spec v w); [contradiction|].
    eexists. split; [reflexivity|]. left. exists (zset (zset e v (e w)) w 0). cbn [fst snd].
    split; [|split; [lia|]].
    + apply stands_set; [|apply repr_zero|unfold fits; cbn; lia]. apply stands_set; [exact H|apply H|apply H].
    + left. split; [apply plenty_nil|]. exists []. split; [apply z_move; exact A|reflexivity].
  - apply always. destruct (H v) as [Rv Fv]. destruct (H w) as [Rw Fw]. cbn [mstep].
    destruct (call_step (SAssign o v w) v _ _ _ e s k H
      (compound_harm grow ok Benign o (Nat.eqb v w) _ _ _ _ Fv Rv Rw (fun E => f_equal s (proj1 (Nat.eqb_eq v w) E)))) as (r & E & F).
    + destruct (zbin_total (bop_of o) (e v) (e w)) as ([r|x] & B); [destruct o; discriminate| |].
      * left. pose proof (eval_bin_spec _ _ _ _ _ _ Rv Rw B) as (x & [_ (n & C)] & R).
        exists x, r. split; [|split; [exact R|]].
        -- specialize (C n ltac:(lia)). destruct o; cbn [bop_of eval_bin compound] in *.
           ++ destruct (Nat.eqb_spec v w); [|exact C]. subst w. cbn [allowed] in A. specialize (A eq_refl). rewrite A in *.
              unfold int_add_assign_self. rewrite (repr_sign _ _ Rv). cbn.
              inversion B; subst. apply f_equal. apply (repr_unique _ _ 0); assumption.
           ++ exact C.
           ++ exact C.
           ++ rewrite <- int_div_result. exact C.
           ++ rewrite <- int_mod_result. exact C.
        -- apply z_assign; [|exact B]. intros ->. exact A.
      * right. exists x. split; [|apply z_assign_throw; exact B].
        pose proof (eval_bin_spec _ _ _ _ _ _ Rv Rw B) as [_ (n & C)]. specialize (C n ltac:(lia)).
        destruct o; cbn [bop_of eval_bin compound] in *; try (inversion B; fail).
        -- rewrite <- int_div_result. exact C.
        -- rewrite <- int_mod_result. exact C.
    + intros x' [(a & Af & R)|(-> & Zv & Nw & W)].
      * left. exists a. split; [exact R|]. left. apply zm_assign. exact Af.
      * right. eexists. split; [|exact W]. apply zw_add; assumption.
    + exists r. auto.
  - apply always. destruct (H v) as [Rv Fv]. cbn [mstep].
    destruct (call_step (SInc v) v _ _ _ e s k H (inc_does grow ok _ Fv)) as (r & E & F).
    + left. destruct (int_inc_spec _ _ Rv) as (x & E & R). exists x, (e v + 1). split; [exact E|]. split; [exact R|]. apply z_inc.
    + intros x' Hx. destruct (step_harm_value 1 _ _ _ (or_introl eq_refl) Rv Hx) as [[N ->]|[Zv W]].
      * left. exists (e v). split; [exact Rv|]. right. split; [reflexivity|]. apply zm_inc. exact N.
      * right. eexists. split; [|exact W]. apply zw_inc. exact Zv.
    + exists r. auto.
  - apply always. destruct (H v) as [Rv Fv]. cbn [mstep].
    destruct (call_step (SDec v) v _ _ _ e s k H (dec_does grow ok _ Fv)) as (r & E & F).
    + left. destruct (int_dec_spec _ _ Rv) as (x & E & R). exists x, (e v - 1). split; [exact E|]. split; [exact R|]. apply z_dec.
    + intros x' Hx. destruct (step_harm_value (-1) _ _ _ (or_intror eq_refl) Rv Hx) as [[N ->]|[Zv W]].
      * left. exists (e v). split; [exact Rv|]. right. split; [reflexivity|]. apply zm_dec. exact N.
      * right. eexists. split; [|exact W]. apply zw_dec. exact Zv.
    + exists r. auto.
  - destruct (H w) as [Rw Fw]. destruct (zun_total o (e w)) as (z & U); [intros ->; exact A|].
    apply (ST _ _ (fun f => m_un grow ok Benign f o (s w)) (fun f => eval_un Benign f o (forget (s w))) z); auto.
    + intros f. apply un_gives. exact Fw.
    + intros f f' Hf. apply un_more. exact Hf.
    + exact (eval_un_spec _ _ _ _ Rw U).
    + intros y ->. apply z_un. exact U.
    + intros x ->. apply z_un_throw. exact U.
  - destruct (H u) as [Ru Fu]. destruct (H w) as [Rw Fw]. destruct (zbin_total o (e u) (e w)) as (z & U); [intros ->; exact A|].
    apply (ST _ _ (fun f => m_binary grow ok Benign f o (s u) (s w)) (fun f => eval_bin Benign f o (forget (s u)) (forget (s w))) z); auto.
    + intros f. apply binary_gives.
    + intros f f' Hf. apply binary_more. exact Hf.
    + exact (eval_bin_spec _ _ _ _ _ _ Ru Rw U).
    + intros y ->. apply z_bin. exact U.
    + intros x ->. apply z_bin_throw. exact U.
  - destruct A as (A1 & A2 & A3 & A4).
    apply (ST _ _ (fun f => m_pow grow ok Benign f (s b) (s e0) (s m)) (fun f => int_pow Benign f (forget (s b)) (forget (s e0)) (forget (s m)))
      (inl (e b ^ e e0 mod Z.abs (e m)))); auto.
    + intros f. apply pow_gives.
    + intros f f' Hf. apply m_pow_more. exact Hf.
    + cbn [meets]. apply int_pow_mod_spec; auto; apply H.
    + intros y E. inversion E; subst. apply z_powmod; assumption.
    + discriminate.
  - apply always. destruct (pure_step _ (SCompare o v w) EBool _ _ e s k H (eval_cmp_spec o _ _ _ _ (proj1 (H v)) (proj1 (H w))) (z_compare _ _ _ _)) as (r & E & F).
    exists r. auto.
  - destruct (H v) as [Rv Fv]. assert (Q : exists b, zquery o (e v) b).
    { destruct (zstep_total (SQuery o v) e A) as (e' & ev & Z). inversion Z; subst. eauto. }
    destruct Q as (b & Q). pose proof (eval_query_spec _ _ _ _ Rv Q) as [_ (n & C)].
    pose proof (query_gives grow ok Benign n o (s v) k) as G. rewrite C in G by lia.
    pose proof (fun f' Hf => query_more grow ok Benign n f' Hf o (s v) k) as Mo.
    unfold emit. destruct (m_query grow ok Benign n o (s v) k) as [[b'|f] k'] eqn:E.
    + destruct G as (L & P & b0 & E0 & <-). inversion E0; subst.
      exists n, (s, k', [ME (EBool b')]). split; [intros fuel Hf; rewrite Mo by (auto; discriminate); reflexivity|].
      left. exists e. cbn [fst snd]. split; [exact H|]. split; [exact L|]. left. split; [exact P|]. exists [EBool b']. split; [apply z_query; exact Q|reflexivity].
    + destruct f as [|x|u|]; [|destruct G as (_ & _ & G); discriminate G|destruct G as (_ & _ & G); discriminate G|destruct G as (_ & _ & G); discriminate G].
      exists n, (s, k', [MEBadAlloc]). split; [intros fuel Hf; rewrite Mo by (auto; discriminate); reflexivity|].
      left. exists e. cbn [fst snd]. split; [exact H|]. split; [exact (short_lt _ _ G)|]. right. split; [exact G|]. split; [reflexivity|].
      apply zm_indirect. destruct o; try reflexivity; exfalso; cbn [m_query] in E; unfold alift in E;
      destruct (eval_query _ _ _ _); discriminate E.
  - apply always. assert (exists d, digit_count (e v) d) as (d & D) by (eexists; apply (digit_count_spec _ _ (proj1 (H v)))).
    assert (E : int_digits (forget (s v)) = Ok d).
    { rewrite (int_digits_spec _ _ (proj1 (H v))). f_equal. exact (digit_count_unique _ _ _ (digit_count_spec _ _ (proj1 (H v))) D). }
    destruct (pure_step _ (SDigits v) ENum _ _ e s k H E (z_digits _ _ _ D)) as (r & E' & F). exists r. auto.
  - apply always. assert (E : m_print (s v) = Ok (show_int (e v))).
    { pose proof (int_print_show _ _ (proj1 (H v))) as P. unfold m_print. change (msign (s v)) with (sign (forget (s v))).
      rewrite (repr_sign _ _ (proj1 (H v))). destruct (Z.eqb_spec (Z.sgn (e v)) 0).
      - rewrite <- P. assert (e v = 0) as E by lia. pose proof (proj1 (H v)) as R. rewrite E in R. rewrite (repr_zero_inv _ R). reflexivity.
      - pose proof (repr_nonnil _ _ (proj1 (H v)) ltac:(lia)) as N. unfold forget in N. cbn [chunks] in N.
        destruct (items (mvec (s v))); [congruence|]. rewrite P. reflexivity. }
    destruct (pure_step _ (SPrint v) EText _ _ e s k H E (z_print _ _)) as (r & E' & F). exists r. auto.
Qed.

(** ** Programs *)

Lemma short_app : forall k k1 k2, (k <= k1)%nat -> (k1 <= k2)%nat -> (short ok k k2 <-> short ok k k1 \/ short ok k1 k2).
Proof.
  intros k k1 k2 L1 L2. split.
  - intros (j & J & E). destruct (Nat.lt_ge_cases j k1); [left|right]; exists j; split; auto; lia.
  - intros [(j & J & E)|(j & J & E)]; exists j; split; auto; lia.
Qed.
Lemma plenty_not_short : forall k k', plenty ok k k' -> ~ short ok k k'.
Proof. intros k k' P (j & J & E). rewrite (P j J) in E. discriminate. Qed.
Lemma no_bad_in_map : forall ev, ~ In MEBadAlloc (map ME ev).
Proof. intros ev I. apply in_map_iff in I. destruct I as (x & E & _). discriminate. Qed.

Lemma mrun_spec : forall prog s k e, stands s e -> zsafe prog e ->
  (exists n s' k' e' ev, (forall fuel, (n <= fuel)%nat -> mrun grow ok Benign fuel prog s k = Ok (s', k', ev)) /\
     (k <= k')%nat /\ zmrun prog e e' ev /\ stands s' e' /\ (In MEBadAlloc ev <-> short ok k k')) \/
  (exists prog1 c prog2 n s1 k1 e1 ev1 s2 k2 v sg, prog = prog1 ++ c :: prog2 /\
     (forall fuel, (n <= fuel)%nat -> mrun grow ok Benign fuel prog1 s k = Ok (s1, k1, ev1)) /\
     zmrun prog1 e e1 ev1 /\ stands s1 e1 /\ (k <= k1)%nat /\
     (forall fuel, (n <= fuel)%nat -> mstep grow ok Benign fuel c s1 k1 = Ok (s2, k2, [MEBadAlloc])) /\
     short ok k1 k2 /\ zwreck c e1 v sg /\ wreck (s2 v) sg /\ fits (s2 v) /\
     (forall w, w <> v -> repr (forget (s2 w)) (e1 w) /\ fits (s2 w))).
Proof.
  induction prog as [|c prog IH]; intros s k e H Sf.
  - left. exists O, s, k, e, []. split; [reflexivity|]. split; [lia|]. split; [constructor|]. split; [exact H|].
    split; [intros []|]. intros S. apply short_lt in S as S'. destruct S as (j & J & _). lia.
  - destruct Sf as [Al Sf]. destruct (mstep_spec c e s k H Al) as (n & [[s1 k1] ev1] & E & [F|W]).
    + destruct F as (e1 & St & L & Q). cbn [fst snd] in *.
      assert (Zm : zmstep c e e1 ev1) by (destruct Q as [(_ & ev & Zs & ->)|(_ & -> & Zs)]; [apply zm_usual|]; exact Zs).
      assert (Bad : In MEBadAlloc ev1 <-> short ok k k1).
      { destruct Q as [(P & ev & _ & ->)|(S & -> & _)].
        - split; intros X; exfalso; [exact (no_bad_in_map _ X)|exact (plenty_not_short _ _ P X)].
        - split; intros _; [exact S|left; reflexivity]. }
      destruct (IH s1 k1 e1 St (Sf e1 ev1 Zm)) as [(n2 & s2 & k2 & e2 & ev2 & E2 & L2 & Z2 & St2 & B2)|
        (p1 & c2 & p2 & n2 & s2 & k2 & e2 & ev2 & s3 & k3 & v & sg & Ep & E2 & Z2 & St2 & L2 & E3 & Sh & Zw & W & Fw & O)].
      * left. exists (Nat.max n n2), s2, k2, e2, (ev1 ++ ev2). split; [|split; [lia|split; [econstructor; eassumption|split; [exact St2|]]]].
        -- intros fuel Hf. cbn [mrun]. rewrite E by lia. cbn [bind fst snd]. rewrite E2 by lia. reflexivity.
        -- rewrite in_app_iff, Bad, B2. symmetry. apply short_app; assumption.
      * right. exists (c :: p1), c2, p2, (Nat.max n n2), s2, k2, e2, (ev1 ++ ev2), s3, k3, v, sg.
        split; [rewrite Ep; reflexivity|]. split.
        -- intros fuel Hf. cbn [mrun]. rewrite E by lia. cbn [bind fst snd]. rewrite E2 by lia. reflexivity.
        -- split; [econstructor; eassumption|]. split; [exact St2|]. split; [lia|]. split; [intros fuel Hf; apply E3; lia|]. auto.
    + right. destruct W as (v & sg & Zw & W & Fw & O & Sh & Ev). cbn [fst snd] in *. subst ev1.
      exists [], c, prog, n, s, k, e, [], s1, k1, v, sg. split; [reflexivity|]. split; [reflexivity|]. split; [constructor|].
      split; [exact H|]. split; [lia|]. auto 8.
Qed.

Lemma zmrun_quiet : forall prog e e' ev, zmrun prog e e' ev -> ~ In MEBadAlloc ev -> exists ev0, zrun prog e e' ev0 /\ ev = map ME ev0.
Proof.
  intros prog e e' ev Z. induction Z as [e|c prog e e1 e2 ev1 ev2 Zs Z IH]; intros N.
  - exists []. split; [constructor|reflexivity].
  - destruct IH as (ev0 & Zr & ->); [intros I; apply N; apply in_app_iff; auto|].
    assert (exists ev1', zstep c e e1 ev1' /\ ev1 = map ME ev1') as (ev1' & Z1 & ->).
    { inversion Zs; subst; try (exfalso; apply N; left; reflexivity). eauto. }
    exists (ev1' ++ ev0). split; [econstructor; eassumption|]. rewrite map_app. reflexivity.
Qed.

(** Enough memory: nothing is different. *)
Lemma mrun_plenty : forall prog s k e, (forall j, ok j = true) -> stands s e -> zsafe prog e ->
  exists n s' k' e' ev, (forall fuel, (n <= fuel)%nat -> mrun grow ok Benign fuel prog s k = Ok (s', k', map ME ev)) /\
    zrun prog e e' ev /\ stands s' e'.
Proof.
  intros prog s k e P H Sf. assert (NS : forall k k', ~ short ok k k') by (intros k0 k' (j & _ & E); rewrite P in E; discriminate).
  destruct (mrun_spec prog s k e H Sf) as [(n & s' & k' & e' & ev & E & L & Z & St & B)|
    (p1 & c2 & p2 & n2 & s2 & k2 & e2 & ev2 & s3 & k3 & v & sg & Ep & E2 & Z2 & St2 & L2 & E3 & Sh & _)]; [|destruct (NS _ _ Sh)].
  destruct (zmrun_quiet _ _ _ _ Z) as (ev0 & Zr & ->); [rewrite B; apply NS|].
  exists n, s', k', e', ev0. auto.
Qed.
End Programs.
