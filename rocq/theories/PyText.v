(** Proofs: Str::format, count, replace, lower and upper against Python. *)
From Coq Require Import String Ascii ZArith List Bool Lia.
From Verif Require Import Outcome IntModel IntSpec ListModel ListSpec ListFacts StrModel StrSpec StrFacts StrMore StrSum PyTextSpec.
Import ListNotations.
Open Scope Z_scope.

(** ** format *)

Lemma formatted_after : forall q s args o, ~ In "{"%char q -> formatted s args o -> formatted (q ++ s) args (q ++ o).
Proof.
  intros q s args o Q F. destruct F as [s|s args N|s a b x args out P F].
  - constructor.
  - apply fmt_none. intros a b (m & E & A & M).
    assert (K: forall (q a s : text) t, ~ In "{"%char q -> q ++ s = a ++ "{"%char :: t -> exists a', a = q ++ a' /\ s = a' ++ "{"%char :: t).
    { clear. induction q as [|c q IH]; intros a s t Q E; [exists a; auto|]. destruct a as [|d a]; cbn in E; injection E as -> E.
      - exfalso. apply Q. left. auto.
      - destruct (IH a s t) as (a' & -> & ->); [intros I; apply Q; right; auto|auto|]. exists a'. auto. }
    destruct (K _ _ _ _ Q E) as (a' & -> & E'). apply (N a' b). exists m. split; auto. split; auto. intros I. apply A. apply in_or_app. auto.
  - destruct P as (m & -> & A & M). rewrite !app_assoc. rewrite <- (app_assoc (q ++ a) x). apply (fmt_put _ (q ++ a) b); auto.
    exists m. rewrite <- app_assoc. split; auto. split; auto. intros I. apply in_app_or in I. tauto.
Qed.

Lemma formatted_prefix : forall q s args o, ~ In "{"%char q -> formatted (q ++ s) args o -> exists o', o = q ++ o' /\ formatted s args o'.
Proof.
  intros q s args o Q F. exists (str_format s args). split; [|apply format_spec].
  eapply formatted_unique; [exact F|]. apply formatted_after; auto. apply format_spec.
Qed.

(** Only fields and other characters *)
Inductive fields : text -> Prop :=
| fo_end : fields []
| fo_char : forall c s, c <> "{"%char -> c <> "}"%char -> fields s -> fields (c :: s)
| fo_field : forall s, fields s -> fields ("{" :: "}" :: s)%char.

Lemma fields_format : forall s args r, py_format s args r -> fields s -> formatted s args r.
Proof.
  intros s args r P. induction P as [args|c s args r N1 N2 P IH|s args r P IH|s args r P IH|s x args r P IH]; intros F.
  - apply fmt_none. intros a b (m & E & _). destruct a; discriminate.
  - inversion F; subst; [|congruence]. apply (formatted_after [c]); [|apply IH; auto]. intros [I|[]]; congruence.
  - inversion F; subst; congruence.
  - inversion F; subst; congruence.
  - inversion F; subst; [congruence|]. apply (fmt_put _ [] s); [|apply IH; auto]. exists []. split; auto.
Qed.

Definition good (x : text) : Prop := x <> [] /\ braceless x.
Lemma good_start : forall x r, good x -> exists c t, x ++ r = c :: t /\ c <> "{"%char /\ c <> "}"%char.
Proof.
  intros [|c x] r (N & A & B); [congruence|]. exists c, (x ++ r). split; auto.
  split; intros ->; [apply A|apply B]; left; auto.
Qed.

Lemma format_short : forall s args r, py_format s args r -> args = [] \/ ~ In "}"%char s -> (length r <= length s)%nat.
Proof.
  intros s args r P. induction P as [args|c s args r N1 N2 P IH|s args r P IH|s args r P IH|s x args r P IH]; intros H; cbn [length]; auto.
  - assert (args = [] \/ ~ In "}"%char s) as H' by (destruct H as [H|H]; [auto|right; intros I; apply H; cbn; auto]). specialize (IH H'). lia.
  - assert (args = [] \/ ~ In "}"%char s) as H' by (destruct H as [H|H]; [auto|right; intros I; apply H; cbn; auto]). specialize (IH H'). lia.
  - assert (args = [] \/ ~ In "}"%char s) as H' by (destruct H as [H|H]; [auto|right; intros I; apply H; cbn; auto]). specialize (IH H'). lia.
  - exfalso. destruct H as [H|H]; [discriminate|]. apply H. cbn. auto.
Qed.

Lemma closers : forall s args r, py_format s args r -> Forall good args -> forall k o, (0 < k)%nat -> formatted s args o -> repeat "}"%char k ++ o <> r.
Proof.
  intros s args r P. induction P as [args|c s args r N1 N2 P IH|s args r P IH|s args r P IH|s x args r P IH]; intros G k o K F E;
    (destruct k as [|k]; [lia|]); cbn [repeat app] in E; try discriminate E.
  - injection E as E1 E2. congruence.
  - injection E as E. destruct (formatted_prefix ["}"; "}"]%char s args o) as (o' & -> & F'); [intros [I|[I|[]]]; discriminate|exact F|].
    apply (IH G (k + 2)%nat o'); [lia|auto|]. rewrite <- E, repeat_app, <- app_assoc. reflexivity.
  - inversion G; subst. destruct (good_start x r) as (c & t & E' & _ & N); auto. rewrite E' in E. injection E as E1 _. congruence.
Qed.

Lemma find_close : forall s : text, In "}"%char s -> exists m b, s = m ++ "}"%char :: b /\ ~ In "}"%char m.
Proof.
  induction s as [|c s IH]; intros I; [destruct I|]. destruct (ascii_dec c "}") as [->|N].
  - exists [], s. split; auto.
  - destruct I as [I|I]; [congruence|]. destruct (IH I) as (m & b & -> & M). exists (c :: m), b. split; auto. intros [J|J]; [congruence|auto].
Qed.

Lemma format_cases : forall s args r, py_format s args r -> Forall good args -> fields s \/ forall o, formatted s args o -> o <> r.
Proof.
  intros s args r P. induction P as [args|c s args r N1 N2 P IH|s args r P IH|s args r P IH|s x args r P IH]; intros G.
  - left. constructor.
  - destruct (IH G) as [F|F]; [left; constructor; auto|right]. intros o H E.
    destruct (formatted_prefix [c] s args o) as (o' & -> & F'); [intros [I|[]]; congruence|exact H|]. cbn in E. injection E as E. apply (F o'); auto.
  - right. intros o H E. destruct args as [|x args].
    + inversion H; subst.
      * match goal with H : _ = "{"%char :: r |- _ => injection H as H; pose proof (format_short _ _ _ P (or_introl eq_refl)) as L; rewrite <- H in L; cbn in L; lia end.
      * match goal with H : _ = "{"%char :: r |- _ => injection H as H; pose proof (format_short _ _ _ P (or_introl eq_refl)) as L; rewrite <- H in L; cbn in L; lia end.
    + inversion G as [|? ? Gx G']; subst. destruct (in_dec ascii_dec "}"%char s) as [I|I].
      * destruct (find_close s I) as (m & b & -> & M).
        assert (PL: placeholder ("{" :: "{" :: m ++ "}" :: b)%char [] b).
        { exists ("{"%char :: m). split; auto. split; [auto|]. intros [J|J]; [discriminate|auto]. }
        pose proof (fmt_put _ _ _ x args _ PL (format_spec b args)) as F2. pose proof (formatted_unique _ _ _ _ H F2) as E2. cbn [app] in E2.
        destruct (good_start x (str_format b args) Gx) as (c & t & E' & N & _). rewrite E' in E2. injection E2 as E2 _. congruence.
      * assert (F2: formatted ("{" :: "{" :: s)%char (x :: args) ("{" :: "{" :: s)%char).
        { apply fmt_none. intros a b (m & E' & _). apply I.
          assert (J: In "}"%char ("{" :: "{" :: s)%char) by (rewrite E'; apply in_or_app; right; right; apply in_or_app; right; left; auto).
          destruct J as [J|[J|J]]; try discriminate. auto. }
        pose proof (formatted_unique _ _ _ _ H F2) as E2. injection E2 as E2.
        pose proof (format_short _ _ _ P (or_intror I)) as L. rewrite E2 in L. cbn in L. lia.
  - right. intros o H E. destruct (formatted_prefix ["}"; "}"]%char s args o) as (o' & -> & F'); [intros [I|[I|[]]]; discriminate|exact H|].
    cbn in E. injection E as E. apply (closers _ _ _ P G 1%nat o'); auto.
  - inversion G as [|? ? Gx G']; subst. destruct (IH G') as [F|F]; [left; apply fo_field; exact F|right; intros o H E].
    assert (PL: placeholder ("{" :: "}" :: s)%char [] s) by (exists []; split; auto).
    pose proof (fmt_put _ _ _ x args _ PL (format_spec s args)) as F2. pose proof (formatted_unique _ _ _ _ H F2) as E2. cbn [app] in E2.
    rewrite E2 in E. apply app_inv_head in E. apply (F (str_format s args)); [apply format_spec|auto].
Qed.

Lemma fields_glue : forall s, fields s <-> exists ts, ts <> [] /\ Forall braceless ts /\ s = glue ["{"; "}"]%char ts.
Proof.
  intros s. split.
  - intros F. induction F as [|c s N1 N2 F (ts & N & B & ->)|s F (ts & N & B & ->)].
    + exists [[]]. split; [discriminate|]. split; auto. repeat constructor; auto.
    + destruct ts as [|t ts]; [congruence|]. inversion B as [|? ? (B1 & B2) B']; subst. exists ((c :: t) :: ts). split; [discriminate|]. split.
      * constructor; auto. split; intros [I|I]; congruence || auto.
      * destruct ts; auto.
    + exists ([] :: ts). split; [discriminate|]. split; [constructor; auto; split; intros []|]. destruct ts; [congruence|]. auto.
  - intros (ts & N & B & ->). induction B as [|t ts (B1 & B2) B IH]; [congruence|].
    assert (K: forall u, fields u -> fields (t ++ u)).
    { clear - B1 B2. intros u U. induction t as [|c t IH]; auto. cbn. constructor; [intros ->; apply B1; left; auto|intros ->; apply B2; left; auto|].
      apply IH; intros I; [apply B1|apply B2]; right; auto. }
    destruct ts as [|t2 ts].
    + cbn. rewrite <- (app_nil_r t). apply K. constructor.
    + change (glue ["{"; "}"]%char (t :: t2 :: ts)) with (t ++ ("{" :: "}" :: glue ["{"; "}"] (t2 :: ts))%char). apply K. apply fo_field. apply IH. discriminate.
Qed.

Lemma format_exact : forall s args r, py_format s args r -> Forall (fun x => x <> [] /\ braceless x) args ->
  (str_format s args = r <-> exists ts, ts <> [] /\ Forall braceless ts /\ s = glue ["{"; "}"]%char ts).
Proof.
  intros s args r P G. rewrite <- fields_glue. split.
  - intros E. destruct (format_cases _ _ _ P G) as [F|F]; auto. exfalso. apply (F (str_format s args)); auto. apply format_spec.
  - intros F. eapply formatted_unique; [apply format_spec|]. apply fields_format; auto.
Qed.

Lemma format_agrees : forall ts args, Forall braceless ts -> ts <> [] -> (length ts <= S (length args))%nat ->
  py_format (glue ["{"; "}"]%char ts) args (str_format (glue ["{"; "}"]%char ts) args).
Proof.
  intros ts args B N L.
  assert (F: fields (glue ["{"; "}"]%char ts)) by (apply fields_glue; eauto).
  enough (exists r, py_format (glue ["{"; "}"]%char ts) args r) as (r & P).
  { replace (str_format _ _) with r; auto. eapply formatted_unique; [|apply format_spec]. apply fields_format; auto. }
  clear F. revert args L. induction B as [|t ts (B1 & B2) B IH]; intros args L; [congruence|].
  assert (K: forall u r, py_format u args r -> py_format (t ++ u) args (t ++ r)).
  { clear - B1 B2. intros u r U. induction t as [|c t IH]; auto. cbn. constructor; [intros ->; apply B1; left; auto|intros ->; apply B2; left; auto|].
    apply IH; intros I; [apply B1|apply B2]; right; auto. }
  destruct ts as [|t2 ts].
  - exists (t ++ []). cbn. rewrite <- (app_nil_r t) at 1. apply K. constructor.
  - destruct args as [|x args]; [cbn in L; lia|]. destruct (IH ltac:(discriminate) args) as (r & R); [cbn in *; lia|].
    exists (t ++ x ++ r). change (glue ["{"; "}"]%char (t :: t2 :: ts)) with (t ++ ("{" :: "}" :: glue ["{"; "}"] (t2 :: ts))%char). apply K. apply pf_field. auto.
Qed.

Lemma format_missing : forall ts args, Forall braceless ts -> (S (length args) < length ts)%nat ->
  (forall r, ~ py_format (glue ["{"; "}"]%char ts) args r) /\
  exists r us, str_format (glue ["{"; "}"]%char ts) args = r ++ glue ["{"; "}"]%char us /\ length us = (length ts - length args)%nat.
Proof.
  intros ts args B L. split.
  - revert args L. induction B as [|t ts (B1 & B2) B IH]; intros args L r P; [cbn in L; lia|]. destruct ts as [|t2 ts]; [cbn in L; lia|].
    change (glue ["{"; "}"]%char (t :: t2 :: ts)) with (t ++ ("{" :: "}" :: glue ["{"; "}"] (t2 :: ts))%char) in P.
    revert r P. induction t as [|c t IHt]; intros r P; cbn [app] in P.
    + inversion P; subst; try congruence. eapply IH; [|eauto]. cbn in *. lia.
    + assert (c <> "{"%char) by (intros ->; apply B1; left; auto). assert (c <> "}"%char) by (intros ->; apply B2; left; auto).
      inversion P; subst; try congruence. eapply IHt; [| |cbn in *; lia|eauto]; intros I; [apply B1|apply B2]; right; auto.
  - revert args L. induction B as [|t ts (B1 & B2) B IH]; intros args L; [cbn in L; lia|]. destruct args as [|x args].
    + exists [], (t :: ts). split; [|cbn; lia]. reflexivity.
    + destruct ts as [|t2 ts]; [cbn in L; lia|]. destruct (IH args ltac:(cbn in *; lia)) as (r & us & E & U).
      exists (t ++ x ++ r), us. split; [|cbn in *; lia].
      change (glue ["{"; "}"]%char (t :: t2 :: ts)) with (t ++ ("{" :: "}" :: glue ["{"; "}"] (t2 :: ts))%char).
      eapply formatted_unique; [apply format_spec|]. rewrite <- !app_assoc, <- E.
      apply (fmt_put _ t (glue ["{"; "}"]%char (t2 :: ts))); [|apply format_spec]. exists []. split; auto.
Qed.

(** ** count *)

Lemma apart_shift : forall x b p js lo, apart b p lo js -> apart (x ++ b) p (len x + lo) (map (Z.add (len x)) js).
Proof.
  intros x b p js. induction js as [|j js IH]; intros lo H; cbn [map apart] in *; auto. destruct H as (A & B & C).
  split; [lia|]. split.
  - apply (occurs_shift x b [] p j) in B. rewrite app_nil_r in B. auto.
  - specialize (IH _ C). rewrite Z.add_assoc in IH. auto.
Qed.
Lemma apart_lower : forall s p js lo lo', lo' <= lo -> apart s p lo js -> apart s p lo' js.
Proof. intros s p [|j js] lo lo' L H; cbn [apart] in *; auto. destruct H as (A & B & C). split; [lia|auto]. Qed.
Lemma apart_unshift : forall x b p js lo, 0 <= lo -> apart (x ++ b) p (len x + lo) js -> apart b p lo (map (fun j => j - len x) js).
Proof.
  intros x b p js. induction js as [|j js IH]; intros lo L H; cbn [map apart] in *; auto. destruct H as (A & B & C).
  assert (B' := B). rewrite <- (app_nil_r b) in B'. apply occurs_window in B'; [|lia|].
  2:{ apply occurs_range in B as (_ & B). rewrite len_app in B. lia. }
  split; [lia|]. split; auto. replace (j - len x + size_of p) with (j + size_of p - len x) by lia.
  apply IH; [unfold size_of; lia|]. replace (len x + (j + size_of p - len x)) with (j + size_of p) by lia. auto.
Qed.

Lemma pieces_count : forall p s ps, p <> [] -> pieces p s ps ->
  (exists js, apart s p 0 js /\ length js = (length ps - 1)%nat) /\ (forall js, apart s p 0 js -> (length js <= length ps - 1)%nat) /\ (1 <= length ps)%nat.
Proof.
  intros p s ps N P. induction P as [s H|a b ps M P ((js & J1 & J2) & J3 & J4)].
  - split; [exists []; split; [exact I|reflexivity]|]. split; [|cbn; lia]. intros [|j js] J; [cbn; lia|]. exfalso. apply (H j). apply J.
  - split; [|split; [|cbn; lia]].
    + exists (len a :: map (Z.add (len (a ++ p))) js). split.
      * split; [apply len_nonneg|]. split; [exists a, b; auto|]. apply (apart_shift (a ++ p)) in J1. rewrite <- app_assoc in J1.
        replace (len a + size_of p) with (len (a ++ p) + 0) by (rewrite len_app; unfold size_of, len; lia). auto.
      * cbn. rewrite map_length. lia.
    + intros [|j js'] J; [cbn; lia|]. destruct J as (_ & B & C). pose proof (M j B) as L.
      rewrite app_assoc in C. apply (apart_lower _ _ _ _ (len (a ++ p) + 0)) in C; [|rewrite len_app; unfold size_of, len in *; lia].
      apply apart_unshift in C; [|lia]. apply J3 in C. rewrite map_length in C. cbn. lia.
Qed.

Lemma count_python : forall s p, len s < INT_MAX -> exists n, py_count s p n /\ str_count s p = Ok n.
Proof.
  intros s p L. destruct (count_all s p ltac:(lia)) as (A & B & _). destruct p as [|c p].
  - exists (len s + 1). split; [left; auto|]. apply B; auto.
  - destruct (A ltac:(discriminate)) as (n & E & (js & J1 & J2) & J3).
    destruct (pieces_all (c :: p) ltac:(discriminate) s) as (ps & P & _). exists (Z.of_nat n). split; auto. right. split; [discriminate|].
    exists ps. split; auto. destruct (pieces_count (c :: p) s ps ltac:(discriminate) P) as ((ks & K1 & K2) & K3 & K4).
    specialize (J3 _ K1). specialize (K3 _ J1). lia.
Qed.

(** ** replace *)
Lemma replace_python : forall s old new, len s <= INT_MAX -> (old <> [] \/ forall c, In c new -> byte c <> 0) ->
  exists r, py_replace s old new r /\ str_replace s old new = Ok r.
Proof.
  intros s old new L H. destruct old as [|c old].
  - destruct H as [H|H]; [congruence|]. eexists. split; [left; split; reflexivity|]. apply replace_empty. auto.
  - destruct (replace_spec s (c :: old) new L ltac:(discriminate)) as (ps & P & E). eexists. split; [right; split; [discriminate|eauto]|]. auto.
Qed.

(** ** lower, upper *)
Lemma case_python : forall s, Forall (fun c => byte c < 128) s ->
  (str_lower s = map py_lower_char s <-> Forall (fun c => 65 <= byte c <= 90 \/ Z.testbit (byte c) 5 = true) s) /\
  (str_upper s = map py_upper_char s <-> Forall (fun c => 97 <= byte c <= 122 \/ Z.testbit (byte c) 5 = false) s).
Proof.
  intros s H. unfold str_lower, str_upper. induction H as [|c s C H (IH1 & IH2)]; cbn [map].
  - split; (split; [constructor|reflexivity]).
  - assert (K: forall (a b : ascii) (u v : text), a :: u = b :: v <-> a = b /\ u = v) by (intros; split; [intros E; injection E; auto|intros (-> & ->); auto]).
    rewrite !K, IH1, IH2, !Forall_cons_iff. clear K IH1 IH2 H.
    assert (G: forall P Q R : Prop, (P <-> Q) -> (P /\ R <-> Q /\ R)) by tauto. split; apply G; clear G; clear s;
      destruct c as [[] [] [] [] [] [] [] []]; cbv in C; try discriminate C;
      (split; intros E; cbv in E |- *;
       [solve [discriminate E | right; reflexivity | left; split; discriminate]
       |solve [reflexivity | exfalso; destruct E as [(E1 & E2)|E]; [first [apply E1; reflexivity | apply E2; reflexivity]|discriminate E]]]).
Qed.

Lemma format_refuted : (exists s args r, py_format s args r /\ str_format s args <> r) /\
  (exists s x r, py_format s [x] r /\ str_format s [str_print x] <> r) /\
  exists s, (forall r, ~ py_format s [] r) /\ str_format s [] = s.
Proof.
  split; [|split].
  - exists ["{"; "{"; "}"; "}"]%char, [["x"%char]], ["{"; "}"]%char. split; [apply pf_open, pf_close, pf_end|]. vm_compute. discriminate.
  - exists ["{"; "}"]%char, ["x"%char], ["x"%char]. split; [apply (pf_field [] ["x"%char] [] []); constructor|]. vm_compute. discriminate.
  - exists ["{"; "}"]%char. split; [|reflexivity]. intros r P. inversion P; subst; congruence.
Qed.

Lemma case_refuted : (exists s, Forall (fun c => byte c < 128) s /\ str_lower s <> map py_lower_char s) /\
  (exists s, Forall (fun c => byte c < 128) s /\ str_upper s <> map py_upper_char s) /\
  exists s old new r, py_replace s old new r /\ str_replace s old new <> Ok r.
Proof.
  split; [|split].
  - exists ["_"%char]. split; [repeat constructor|]. vm_compute. discriminate.
  - exists ["1"%char]. split; [repeat constructor|]. vm_compute. discriminate.
  - exists ["a"%char], [], ["000"%char]. eexists. split; [left; split; reflexivity|]. vm_compute. discriminate.
Qed.
