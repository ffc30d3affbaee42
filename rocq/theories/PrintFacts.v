(** Printed text determines the printed value. *)
From Coq Require Import String Ascii ZArith List Bool Lia.
From Coq Require Import Eqdep_dec.
From Verif Require Import Outcome Show ShowFacts IntModel IntSpec IntIO IntMore FracModel FracSpec ListModel ListSpec ListMore
  DequeModel SetModel DictModel StrModel TupleModel PrintSpec ExTools.
Import ListNotations.
Open Scope Z_scope.

Definition delim (c : ascii) : Prop := In c (chars ",:]}>)").
Definition tail (s : list ascii) : Prop := match s with [] => True | c :: _ => delim c end.

(** [show x] ends by itself where a delimiter follows. *)
Definition readable {T} (show : T -> list ascii) (P : T -> Prop) : Prop :=
  (forall x, P x -> exists c r, show x = c :: r /\ ~ delim c) /\
  (forall x y s t, P x -> P y -> tail s -> tail t -> show x ++ s = show y ++ t -> x = y /\ s = t).

Lemma plain_split : forall u v s t, Forall (fun c => ~ delim c) u -> Forall (fun c => ~ delim c) v -> tail s -> tail t ->
  u ++ s = v ++ t -> u = v /\ s = t.
Proof.
  induction u as [|c u]; intros [|d v] s t Fu Fv S T E; cbn [app] in E.
  - auto.
  - subst s. inversion Fv; subst. cbn in S. contradiction.
  - subst t. inversion Fu; subst. cbn in T. contradiction.
  - injection E as -> E. inversion Fu; inversion Fv; subst. destruct (IHu v s t) as (-> & ->); auto.
Qed.

Lemma plain_readable : forall T (show : T -> list ascii) (P : T -> Prop),
  (forall x, P x -> show x <> []) -> (forall x, P x -> Forall (fun c => ~ delim c) (show x)) ->
  (forall x y, P x -> P y -> show x = show y -> x = y) -> readable show P.
Proof.
  intros T show P N F I. split.
  - intros x Px. specialize (N x Px). specialize (F x Px). destruct (show x) as [|c r]; [contradiction|].
    inversion F; subst. eauto.
  - intros x y s t Px Py S T' E. apply plain_split in E; auto. destruct E. split; auto.
Qed.

Definition delimb (c : ascii) : bool := existsb (Ascii.eqb c) (chars ",:]}>)").
Lemma delim_b : forall c, delim c <-> delimb c = true.
Proof.
  intros c. unfold delim, delimb. rewrite existsb_exists. split.
  - intros I. exists c. split; auto. apply Ascii.eqb_refl.
  - intros (x & I & E). apply Ascii.eqb_eq in E. subst. auto.
Qed.
Lemma digit_plain : forall c, digit_of c <> None -> ~ delim c.
Proof. intros c H D. cbn in D. repeat (destruct D as [<-|D]; [apply H; reflexivity|]). auto. Qed.

Lemma usual_plain : forall s, usual_notation s -> s <> [] /\ Forall (fun c => ~ delim c) s.
Proof.
  intros s [->|(c & ds & E & (d & Hd & _) & F)].
  - split; [discriminate|]. constructor; auto. apply digit_plain. discriminate.
  - assert (G: Forall (fun c => ~ delim c) (c :: ds)).
    { constructor; [apply digit_plain; congruence|]. eapply Forall_impl; [|exact F]. intros a. apply digit_plain. }
    destruct E as [-> | ->]; split; try discriminate; auto. constructor; auto.
    rewrite delim_b. discriminate.
Qed.
Lemma show_plain : forall z, show_int z <> [] /\ Forall (fun c => ~ delim c) (show_int z).
Proof. intros z. apply usual_plain. apply show_int_spec. Qed.
Lemma show_inj : forall a b, show_int a = show_int b -> a = b.
Proof.
  intros a b E. destruct (show_int_spec a) as (A & _). destruct (show_int_spec b) as (B & _). rewrite E in A. congruence.
Qed.

Lemma machine_readable : readable show_int (fun _ => True).
Proof.
  apply plain_readable; intros; try apply show_plain. apply show_inj; auto.
Qed.
Lemma int_readable : readable int_print canonical.
Proof.
  apply plain_readable.
  - intros x C. destruct (usual_plain (int_print x)) as (A & B); auto. apply (int_print_usual x (value x)). split; auto.
  - intros x C. destruct (usual_plain (int_print x)) as (A & B); auto. apply (int_print_usual x (value x)). split; auto.
  - intros x y C D E. pose proof (int_print_roundtrip x C) as A. rewrite E in A. rewrite int_print_roundtrip in A by auto. congruence.
Qed.

Lemma slash_show : forall z, ~ In slash (show_int z).
Proof.
  intros z I. destruct (show_int_spec z) as (_ & U). destruct U as [E|(c & ds & E & (d & Hd & _) & F)].
  - rewrite E in I. destruct I as [I|[]]. discriminate.
  - assert (G: forall a, In a (c :: ds) -> a <> slash).
    { intros a [<-|J] ->; [discriminate|]. rewrite Forall_forall in F. apply (F _ J). reflexivity. }
    destruct E as [E|E]; rewrite E in I; [eapply G; eauto|]. destruct I as [I|I]; [discriminate|eapply G; eauto].
Qed.
Lemma quote_split : forall q u v s t, ~ In q u -> ~ In q v -> u ++ q :: s = v ++ q :: t :> list ascii -> u = v /\ s = t.
Proof.
  induction u as [|c u]; intros [|d v] s t Fu Fv E; cbn [app] in E.
  - injection E. auto.
  - injection E as -> E. destruct Fv. left. auto.
  - injection E as -> E. destruct Fu. left. auto.
  - injection E as -> E. destruct (IHu v s t) as (-> & ->); auto; intros I; [apply Fu|apply Fv]; right; auto.
Qed.
Lemma fraction_readable : readable frac_print (fun _ => True).
Proof.
  assert (S: ~ delim slash) by (rewrite delim_b; discriminate).
  apply plain_readable; unfold frac_print; intros x.
  - intros _. destruct (den x =? 1); [apply show_plain|]. intros E. apply app_eq_nil in E. destruct E. discriminate.
  - intros _. destruct (den x =? 1); [apply show_plain|]. apply Forall_app. split; [apply show_plain|].
    constructor; auto. apply show_plain.
  - intros y _ _. destruct x as [a b], y as [c d]. cbn [num den].
    destruct (Z.eqb_spec b 1) as [-> |], (Z.eqb_spec d 1) as [-> |]; intros E.
    + apply show_inj in E. congruence.
    + destruct (slash_show a). rewrite E. apply in_app_iff. right. left. auto.
    + destruct (slash_show c). rewrite <- E. apply in_app_iff. right. left. auto.
    + apply quote_split in E; try apply slash_show. destruct E as (E1 & E2). apply show_inj in E1. apply show_inj in E2. congruence.
Qed.

Lemma str_readable : readable str_print (fun s => ~ In """"%char s).
Proof.
  split.
  - intros x _. exists """"%char. eexists. split; [reflexivity|]. rewrite delim_b. discriminate.
  - intros x y s t X Y _ _. unfold str_print. cbn [app]. rewrite <- !app_assoc. cbn [app]. intros E. injection E as E.
    apply quote_split in E; auto.
Qed.

Lemma pair_readable : forall K V (sk : K -> list ascii) (sv : V -> list ascii) P Q, readable sk P -> readable sv Q ->
  readable (show_pair sk sv) (fun p => P (fst p) /\ Q (snd p)).
Proof.
  intros K V sk sv P Q (A1 & B1) (A2 & B2). split.
  - intros (k, v) (Pk & Pv). cbn [fst snd] in *. destruct (A1 k Pk) as (c & r & E & D). unfold show_pair. cbn [fst snd].
    rewrite E. cbn [app]. eauto.
  - intros (k, v) (k', v') s t (Pk & Pv) (Pk' & Pv') S T. cbn [fst snd] in *. unfold show_pair. cbn [fst snd].
    rewrite <- !app_assoc. intros E. apply B1 in E; auto; [|cbn; auto 10..]. destruct E as (-> & E). cbn [app] in E.
    injection E as E. apply B2 in E; auto. destruct E as (-> & ->). auto.
Qed.

Lemma commas_split : forall T (show : T -> list ascii) P close, readable show P -> delim close -> close <> ","%char ->
  forall l m s t, Forall P l -> Forall P m ->
  commas (map show l) ++ close :: s = commas (map show m) ++ close :: t -> l = m /\ s = t.
Proof.
  intros T show P close (A & B) D N. 
  assert (C: forall x l s, exists r, commas (map show (x :: l)) ++ close :: s = show x ++ r /\ tail r /\
     match l with [] => r = close :: s | _ => r = ","%char :: " "%char :: commas (map show l) ++ close :: s end).
  { intros x [|y l] s.
    - exists (close :: s). cbn. auto.
    - eexists. split; [|split; [|reflexivity]]. 
      + change (commas (map show (x :: y :: l))) with (show x ++ ","%char :: " "%char :: commas (map show (y :: l))).
        rewrite <- app_assoc. reflexivity.
      + cbn. auto. }
  assert (Z0: forall x l s t, P x -> close :: s = commas (map show (x :: l)) ++ close :: t -> False).
  { intros x l s t Px E. destruct (C x l t) as (r & E' & _). rewrite E' in E. destruct (A x Px) as (c & u & F & G). rewrite F in E.
    cbn [app] in E. injection E as -> _. auto. }
  induction l as [|x l]; intros [|y m] s t Fl Fm E.
  - cbn [map commas app] in E. injection E. auto.
  - inversion Fm; subst. destruct (Z0 y m s t); auto.
  - inversion Fl; subst. destruct (Z0 x l t s); auto.
  - inversion Fl; inversion Fm; subst. destruct (C x l s) as (r & E1 & T1 & R1). destruct (C y m t) as (r' & E2 & T2 & R2).
    rewrite E1, E2 in E. apply B in E; auto. destruct E as (-> & ->).
    destruct l as [|x' l], m as [|y' m]; subst r'.
    + injection R2. auto.
    + injection R2 as H _. contradiction.
    + injection R2 as H _. symmetry in H. contradiction.
    + assert (R3: commas (map show (x' :: l)) ++ close :: s = commas (map show (y' :: m)) ++ close :: t) by (injection R2; auto).
      apply IHl in R3; auto. destruct R3 as (-> & ->). auto.
Qed.

Lemma range_readable : forall T (show : T -> list ascii) P open close, readable show P -> ~ delim open -> delim close -> close <> ","%char ->
  readable (fun l => print_range show l open close) (Forall P).
Proof.
  intros T show P open close R O D N. split.
  - intros l _. rewrite print_spec. eauto.
  - intros l m s t Fl Fm _ _. rewrite !print_spec. cbn [app]. rewrite <- !app_assoc. cbn [app]. intros E. injection E as E.
    eapply commas_split in E; eauto.
Qed.

Lemma readable_weaken : forall T (show : T -> list ascii) (P Q : T -> Prop), (forall x, Q x -> P x) -> readable show P -> readable show Q.
Proof. intros T show P Q W (A & B). split; [intros; apply A|intros; apply B]; auto. Qed.

Definition fair (t : ty) (x : thing t) : Prop := held t x /\ unquoted t x.

Lemma forall_and : forall T (P Q : T -> Prop) l, Forall P l /\ Forall Q l -> Forall (fun x => P x /\ Q x) l.
Proof. intros T P Q l (A & B). rewrite Forall_forall in *. auto. Qed.

Ltac delims := match goal with
  | |- ~ delim _ => rewrite delim_b; discriminate
  | |- delim _ => rewrite delim_b; reflexivity
  | |- _ <> _ => discriminate
  end.

Lemma text_readable : forall t, readable (text t) (fair t).
Proof.
  induction t; unfold fair; cbn [text held unquoted].
  - eapply readable_weaken; [|apply machine_readable]. intros x H. cbn in H |- *. tauto.
  - eapply readable_weaken; [|apply int_readable]. intros x H. cbn in H |- *. tauto.
  - eapply readable_weaken; [|apply fraction_readable]. intros x H. cbn in H |- *. tauto.
  - eapply readable_weaken; [|apply str_readable]. intros x H. cbn in H |- *. tauto.
  - eapply readable_weaken; [intros x; apply forall_and|]. apply range_readable; auto; delims.
  - eapply readable_weaken; [intros x; apply forall_and|]. apply range_readable; auto; delims.
  - eapply readable_weaken; [intros x; apply forall_and|]. apply range_readable; auto; delims.
  - apply readable_weaken with (P := Forall (fun p => fair t1 (fst p) /\ fair t2 (snd p))).
    { intros x H. apply forall_and in H. eapply Forall_impl; [|exact H]. unfold fair. cbn. tauto. }
    apply range_readable; try delims. apply pair_readable; auto.
Qed.

Lemma text_determines : forall t x y, held t x -> held t y -> unquoted t x -> unquoted t y -> text t x = text t y -> x = y.
Proof.
  intros t x y H1 H2 U1 U2 E. destruct (text_readable t) as (_ & R). apply (R x y [] []); cbn; auto; try split; auto.
  rewrite E. auto.
Qed.

Lemma nil_inv : forall U (el : U -> Type) (t : tuple el []), t = TNil.
Proof.
  intros U el t.
  refine (match t in tuple _ l return match l return tuple el l -> Prop with [] => fun t => t = TNil | _ :: _ => fun _ => True end t with
    | TNil => eq_refl | TCons _ _ => I end).
Qed.
Lemma cons_inv : forall U (el : U -> Type) u us (t : tuple el (u :: us)), exists x t', t = TCons x t'.
Proof.
  intros U el u us t.
  refine (match t in tuple _ l return match l return tuple el l -> Prop with [] => fun _ => True | u :: us => fun t => exists x t', t = TCons x t' end t with
    | TNil => I | TCons x t' => _ end). eauto.
Qed.

Lemma rest_split : forall us (t s : tuple thing us) a b, each held t -> each held s -> each unquoted t -> each unquoted s ->
  print_rest text t ++ ")"%char :: a = print_rest text s ++ ")"%char :: b -> t = s /\ a = b.
Proof.
  induction us as [|u us]; intros t s a b Ht Hs Ut Us E.
  - rewrite (nil_inv _ _ t), (nil_inv _ _ s) in *. injection E. auto.
  - destruct (cons_inv _ _ _ _ t) as (x & t' & ->). destruct (cons_inv _ _ _ _ s) as (y & s' & ->).
    cbn [each] in *. destruct Ht, Hs, Ut, Us. cbn [print_rest] in E.
    change (tuple_size (TCons x t')) with (Z.of_nat (length (u :: us))) in E.
    change (tuple_size (TCons y s')) with (Z.of_nat (length (u :: us))) in E.
    rewrite <- !app_assoc in E. destruct (text_readable u) as (_ & R). apply R in E; [|unfold fair; auto..| |].
    + destruct E as (-> & E). destruct (Z.of_nat (length (u :: us)) =? 1); cbn [app list_ascii_of_string] in E.
      * apply IHus in E; auto. destruct E as (-> & ->). auto.
      * injection E as E. apply IHus in E; auto. destruct E as (-> & ->). auto.
    + destruct us as [|v us]; [rewrite (nil_inv _ _ t')|]; [cbn; auto 10|].
      destruct (Z.eqb_spec (Z.of_nat (length (u :: v :: us))) 1); [cbn [length] in *; lia|]. cbn. auto.
    + destruct us as [|v us]; [rewrite (nil_inv _ _ s')|]; [cbn; auto 10|].
      destruct (Z.eqb_spec (Z.of_nat (length (u :: v :: us))) 1); [cbn [length] in *; lia|]. cbn. auto.
Qed.

Lemma tuple_determines : forall us (t s : tuple thing us), each held t -> each held s -> each unquoted t -> each unquoted s ->
  tuple_print text t = tuple_print text s -> t = s.
Proof.
  intros [|u us] t s Ht Hs Ut Us E.
  - rewrite (nil_inv _ _ t), (nil_inv _ _ s). auto.
  - destruct (cons_inv _ _ _ _ t) as (x & t' & ->). destruct (cons_inv _ _ _ _ s) as (y & s' & ->).
    destruct us as [|v us].
    + rewrite (nil_inv _ _ t'), (nil_inv _ _ s') in *. cbn [tuple_print list_ascii_of_string app] in E. injection E as E.
      cbn [each] in *. destruct Ht, Hs, Ut, Us. destruct (text_readable u) as (_ & R).
      apply R in E; [|unfold fair; auto..| |]; [|cbn; auto..]. destruct E as (-> & _). auto.
    + assert (F: forall t : tuple thing (u :: v :: us), tuple_print text t = "("%char :: print_rest text t ++ [")"%char]).
      { intros r. destruct (cons_inv _ _ _ _ r) as (z & r' & ->). destruct (cons_inv _ _ _ _ r') as (z' & r'' & ->). reflexivity. }
      rewrite !F in E. apply (f_equal (@List.tl ascii)) in E. cbn [List.tl] in E. apply rest_split in E; tauto.
Qed.

Lemma quotes_collide :
  let one := [chars "a"", ""b"] in let two := [chars "a"; chars "b"] in
  text (TList TStr) one = text (TList TStr) two /\ one <> two /\
  text (TDeque TStr) one = text (TDeque TStr) two /\ text (TSet TStr) one = text (TSet TStr) two.
Proof. cbv zeta. split; [vm_compute; reflexivity|split; [discriminate|split; vm_compute; reflexivity]]. Qed.
Lemma quotes_collide_dict :
  let one := [(0, chars "a"", 1: ""b")] in let two := [(0, chars "a"); (1, chars "b")] in
  text (TDict TMachine TStr) one = text (TDict TMachine TStr) two /\ one <> two.
Proof. cbv zeta. split; [vm_compute; reflexivity|discriminate]. Qed.
