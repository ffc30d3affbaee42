(** Containers look at their elements only through the operations of the element type. *)
From Coq Require Import ZArith List Bool Ascii Lia.
From Verif Require Import Outcome ListModel ListProgModel DequeModel SetModel DictModel RenameSpec.
Import ListNotations.
Open Scope Z_scope.

Definition omap {A B} (g : A -> B) (o : outcome A) : outcome B :=
  match o with Ok a => Ok (g a) | Throw e => Throw e | UB u => UB u | OutOfFuel => OutOfFuel end.
(** A call on renamed elements. *)
Definition pmap {A B U T} (g : A -> B) (f : U -> T) (r : outcome A * list U) : outcome B * list T :=
  (omap g (fst r), map f (snd r)).

Lemma bind_omap : forall A A' B B' (g : A -> A') (h : B -> B') (o : outcome A) o' k k',
  o' = omap g o -> (forall a, k' (g a) = omap h (k a)) -> bind o' k' = omap h (bind o k).
Proof. intros. subst. destruct o; simpl; auto. Qed.

Lemma bind_same : forall A B B' (h : B -> B') (o : outcome A) k k',
  (forall a, k' a = omap h (k a)) -> bind o k' = omap h (bind o k).
Proof. intros. destruct o; simpl; auto. Qed.

Section Seq.
Context {U T : Type} (f : U -> T).

Lemma len_map : forall v, len (map f v) = len v.
Proof. intros. unfold len. rewrite map_length. auto. Qed.
Lemma size_map : forall v, size (map f v) = size v.
Proof. intros. unfold size. rewrite len_map. auto. Qed.
Lemma firstn_map' : forall n v, firstn n (map f v) = map f (firstn n v).
Proof. intros. apply firstn_map. Qed.
Lemma skipn_map' : forall n v, skipn n (map f v) = map f (skipn n v).
Proof. intros. apply skipn_map. Qed.
Lemma nth_map : forall n v, nth_error (map f v) n = option_map f (nth_error v n).
Proof. intros. apply nth_error_map. Qed.

Lemma vat_map : forall v k, vat (map f v) k = omap f (vat v k).
Proof. intros. unfold vat. destruct (k <? 0); auto. rewrite nth_map. destruct (nth_error v (Z.to_nat k)); auto. Qed.
Lemma vput_map : forall v k x, vput (map f v) k (f x) = omap (map f) (vput v k x).
Proof.
  intros. unfold vput. rewrite len_map. destruct (_ || _); auto. cbn [omap]. rewrite firstn_map', skipn_map', map_app. auto.
Qed.
Lemma vinsert_map : forall v k x, vinsert (map f v) k (f x) = omap (map f) (vinsert v k x).
Proof.
  intros. unfold vinsert. rewrite len_map. destruct (_ || _); auto. cbn [omap]. rewrite firstn_map', skipn_map', map_app. auto.
Qed.
Lemma verase_map : forall v a b, verase (map f v) a b = omap (map f) (verase v a b).
Proof.
  intros. unfold verase. rewrite len_map. destruct (_ || _); auto. cbn [omap]. rewrite firstn_map', skipn_map', map_app. auto.
Qed.
Lemma copy_map : forall src v k, std_copy (map f src) (map f v) k = omap (map f) (std_copy src v k).
Proof.
  intros. unfold std_copy. rewrite !len_map. destruct (_ || _); auto. cbn [omap]. rewrite firstn_map', skipn_map', !map_app. auto.
Qed.
Lemma rotate_map : forall v k, std_rotate (map f v) k = omap (map f) (std_rotate v k).
Proof.
  intros. unfold std_rotate. rewrite !len_map. destruct (_ || _); auto. cbn [omap]. rewrite firstn_map', skipn_map', !map_app. auto.
Qed.
Lemma from_end_map : forall v i, from_end (map f v) i = from_end v i.
Proof. intros. unfold from_end. rewrite size_map. auto. Qed.

Lemma at_map : forall v i, list_at (map f v) i = omap f (list_at v i).
Proof. intros. unfold list_at. rewrite size_map, from_end_map. repeat (apply bind_same; intros). apply vat_map. Qed.

Lemma update_map : forall F G v, F (map f v) = omap (map f) (G v) -> update F (map f v) = pmap (fun x => x) f (update G v).
Proof. intros F G v H. unfold update. rewrite H. destruct (G v); reflexivity. Qed.

Lemma set_map : forall i x v, list_set i (f x) (map f v) = pmap (fun x => x) f (list_set i x v).
Proof.
  intros. unfold list_set. rewrite size_map, from_end_map.
  erewrite (bind_same _ _ _ (map f)).
  2:{ intros. apply bind_same. intros. apply bind_same. intros. apply vput_map. }
  match goal with |- context [omap _ ?o] => destruct o end; reflexivity.
Qed.

Lemma insert_map : forall i x v, list_insert i (f x) (map f v) = pmap (fun x => x) f (list_insert i x v).
Proof.
  intros. apply update_map. rewrite size_map, from_end_map. repeat (apply bind_same; intros). apply vinsert_map.
Qed.

Lemma remove_map : forall i v, list_remove i (map f v) = pmap f f (list_remove i v).
Proof.
  intros. unfold list_remove. rewrite size_map, from_end_map.
  match goal with |- match ?x with _ => _ end = pmap _ _ (match ?y with _ => _ end) =>
    assert (E: x = omap (fun p => (f (fst p), map f (snd p))) y) end.
  { repeat (apply bind_same; intros). apply (bind_omap _ _ _ _ f); [apply vat_map|]. intros.
    apply (bind_omap _ _ _ _ (map f)); [apply verase_map|]. intros. reflexivity. }
  rewrite E. match goal with |- context [omap _ ?o] => destruct o as [[? ?]| | |] end; reflexivity.
Qed.

Lemma append_map : forall x v, list_append (f x) (map f v) = pmap (fun x => x) f (list_append x v).
Proof. intros. apply update_map. rewrite size_map. apply bind_same. intros. cbn. rewrite map_app. auto. Qed.

Lemma append_list_map : forall w b v, list_append_list (map f w) b (map f v) = pmap (fun x => x) f (list_append_list w b v).
Proof. intros. apply update_map. rewrite !size_map. apply bind_same. intros. destruct b; cbn; auto. rewrite map_app. auto. Qed.

Lemma extend_map : forall w v, list_extend (map f w) (map f v) = pmap (fun x => x) f (list_extend w v).
Proof. intros. apply update_map. cbn. rewrite map_app. auto. Qed.

Lemma repeat_map : forall d n, repeat (f d) n = map f (repeat d n).
Proof. induction n; simpl; congruence. Qed.

Lemma times_loop_map : forall v n part b, times_loop (map f v) n part (map f b) = omap (map f) (times_loop v n part b).
Proof.
  intros v. induction n; intros; cbn [times_loop]; auto. rewrite size_map. apply bind_same. intros.
  apply (bind_omap _ _ _ _ (map f)); auto. apply copy_map.
Qed.

Lemma times_map : forall d n v, list_times (f d) (map f v) n = omap (map f) (list_times d v n).
Proof.
  intros. unfold list_times. destruct (n <? 0); auto. rewrite size_map. apply bind_same. intros. apply bind_same. intros.
  destruct (a <? 0); auto. rewrite repeat_map. apply times_loop_map.
Qed.

Lemma times_assign_map : forall d n v, list_times_assign (f d) n (map f v) = pmap (fun x => x) f (list_times_assign d n v).
Proof. intros. apply update_map. apply times_map. Qed.

Lemma shl_map : forall n v, list_shl n (map f v) = pmap (fun x => x) f (list_shl n v).
Proof.
  intros. apply update_map. rewrite size_map. destruct (_ || _); auto. apply bind_same. intros. apply rotate_map.
Qed.
Lemma shr_map : forall n v, list_shr n (map f v) = pmap (fun x => x) f (list_shr n v).
Proof.
  intros. unfold list_shr. rewrite size_map. destruct (_ || _); auto.
  destruct (if n <? 0 then _ else _); try reflexivity. apply shl_map.
Qed.
Lemma reverse_map : forall v, list_reverse (map f v) = pmap (fun x => x) f (list_reverse v).
Proof. intros. apply update_map. cbn. rewrite map_rev. auto. Qed.
Lemma erase_map : forall a b v, list_erase a b (map f v) = pmap (fun x => x) f (list_erase a b v).
Proof. intros. apply update_map. rewrite size_map. repeat (apply bind_same; intros). apply verase_map. Qed.
Lemma clear_map : forall v, list_clear (map f v) = pmap (fun x => x) f (list_clear v).
Proof. intros. apply update_map. auto. Qed.

Lemma slice_loop_map : forall v stop step fuel i b,
  slice_loop (map f v) stop step fuel i (map f b) = omap (map f) (slice_loop v stop step fuel i b).
Proof.
  intros v stop step. induction fuel; intros; cbn [slice_loop]; auto.
  destruct (if 0 <? step then _ else _); auto.
  apply (bind_omap _ _ _ _ f); [apply vat_map|]. intros. apply bind_same. intros.
  replace (map f b ++ [f a]) with (map f (b ++ [a])) by (rewrite map_app; auto). auto.
Qed.
Lemma slice_map : forall v a b c, list_slice (map f v) a b c = omap (map f) (list_slice v a b c).
Proof.
  intros. unfold list_slice. destruct (c =? 0); auto. rewrite size_map, map_length. repeat (apply bind_same; intros).
  apply (slice_loop_map v _ _ _ _ []).
Qed.
Lemma plus_list_map : forall v w, list_plus_list (map f v) (map f w) = omap (map f) (list_plus_list v w).
Proof.
  intros. unfold list_plus_list, on_copy. rewrite append_list_map. destruct (list_append_list w false v) as [[| | |] ?]; reflexivity.
Qed.

Lemma for_each_map : forall g h, (forall a, h (f a) = f (g a)) -> forall v,
  list_map (fun _ x => (tt, h x)) tt (map f v) = pmap (fun x => x) f (list_map (fun _ x => (tt, g x)) tt v).
Proof.
  intros g h H v. unfold list_map.
  assert (E: forall w, for_each (fun (_ : unit) x => (tt, h x)) tt (map f w) = (fst (for_each (fun (_ : unit) x => (tt, g x)) tt w), map f (snd (for_each (fun (_ : unit) x => (tt, g x)) tt w)))).
  { induction w; simpl; auto. rewrite IHw. destruct (for_each _ tt w). simpl. rewrite H. auto. }
  rewrite E. destruct (for_each _ tt v). reflexivity.
Qed.

Lemma copy_if_map : forall p q, (forall a, q (f a) = p a) -> forall n a b v,
  std_copy_if_loop q n a b (map f v) = omap (fun r => (map f (fst r), snd r)) (std_copy_if_loop p n a b v).
Proof.
  intros p q H. induction n; intros; cbn [std_copy_if_loop]; auto.
  apply (bind_omap _ _ _ _ f); [apply vat_map|]. intros y. rewrite H. destruct (p y); auto.
  apply (bind_omap _ _ _ _ (map f)); [apply vput_map|]. auto.
Qed.
Lemma filter_map_ : forall b p q, (forall a, q (f a) = p a) -> forall v,
  list_filter b q (map f v) = pmap (fun x => x) f (list_filter b p v).
Proof.
  intros b p q H v. apply update_map. destruct v; [cbn; destruct b; reflexivity|].
  change (list_is_empty (map f (u :: v))) with (list_is_empty (u :: v)). destruct (b && _); auto. rewrite map_length.
  eapply bind_omap; [apply copy_if_map; eauto|]. intros [w e]. cbn [fst snd]. rewrite len_map. apply verase_map.
Qed.

Variables (show : T -> list ascii) (show' : U -> list ascii).
Hypothesis SH : forall a, show (f a) = show' a.
Lemma print_map : forall v a b, print_range show (map f v) a b = print_range show' v a b.
Proof.
  assert (L: forall w x c os, print_loop show (f x) (map f w) c os = print_loop show' x w c os).
  { induction w; intros; cbn; rewrite SH; auto. }
  intros [|x v] a b; cbn; auto.
Qed.

Variables (eqb : T -> T -> bool) (eqb' : U -> U -> bool).
Hypothesis EQ : forall a b, eqb (f a) (f b) = eqb' a b.
Lemma find_map_ : forall v x, std_find eqb (map f v) (f x) = std_find eqb' v x.
Proof. induction v; intros; cbn; auto. rewrite EQ, IHv. auto. Qed.
Lemma count_map_ : forall v x, std_count eqb (map f v) (f x) = std_count eqb' v x.
Proof. induction v; intros; cbn; auto. rewrite EQ, IHv. auto. Qed.
Lemma index_map : forall v x a b, list_index eqb (map f v) (f x) a b = list_index eqb' v x a b.
Proof.
  intros. unfold list_index. rewrite size_map, len_map. rewrite skipn_map', firstn_map', find_map_. auto.
Qed.
Lemma subtract_map : forall x v, list_subtract eqb (f x) (map f v) = pmap (fun x => x) f (list_subtract eqb' x v).
Proof.
  intros. apply update_map. cbv zeta beta. rewrite find_map_, map_length.
  destruct (Nat.eqb (std_find eqb' v x) (length v)); auto. apply verase_map.
Qed.
Lemma remove_loop_map : forall x n a b v,
  std_remove_loop eqb (Val (f x)) n a b (map f v) = omap (fun r => (map f (fst r), snd r)) (std_remove_loop eqb' (Val x) n a b v).
Proof.
  intros x. induction n; intros; cbn [std_remove_loop deref]; auto.
  apply (bind_omap _ _ _ _ f); [apply vat_map|]. intros y. cbn [bind]. rewrite EQ. destruct (eqb' y x); auto.
  apply (bind_omap _ _ _ _ (map f)); [apply vput_map|]. auto.
Qed.
Lemma divide_map : forall x v, list_divide eqb (Val (f x)) (map f v) = pmap (fun x => x) f (list_divide eqb' (Val x) v).
Proof.
  intros. apply update_map. unfold std_remove. rewrite map_length.
  eapply bind_omap; [apply remove_loop_map|]. intros [w e]. cbn [fst snd]. rewrite len_map. apply verase_map.
Qed.
Lemma uniq_map : forall v b, uniq_loop eqb (map f v) (map f b) = map f (uniq_loop eqb' v b).
Proof.
  induction v; intros; cbn [map uniq_loop]; auto. rewrite find_map_, map_length. destruct (Nat.eqb _ _); auto.
  replace (map f b ++ [f a]) with (map f (b ++ [a])) by (rewrite map_app; auto). auto.
Qed.
Lemma uniquify_map : forall v, list_uniquify eqb (map f v) = pmap (fun x => x) f (list_uniquify eqb' v).
Proof. intros. apply update_map. cbn [omap]. rewrite <- (uniq_map v []). auto. Qed.
Lemma eqb_map : forall v w, list_eqb eqb (map f v) (map f w) = list_eqb eqb' v w.
Proof.
  intros. unfold list_eqb. rewrite !map_length. f_equal. revert w. induction v; intros [|y w]; cbn; auto. rewrite EQ, IHv. auto.
Qed.

Variables (lt : T -> T -> bool) (lt' : U -> U -> bool).
Hypothesis LT : forall a b, lt (f a) (f b) = lt' a b.
Lemma sort_insert_map : forall x v, sort_insert lt (f x) (map f v) = map f (sort_insert lt' x v).
Proof. induction v; cbn; auto. rewrite LT. destruct (lt' a x); cbn; congruence. Qed.
Lemma stable_sort_map : forall v, std_stable_sort lt (map f v) = map f (std_stable_sort lt' v).
Proof. induction v; cbn; auto. rewrite IHv, sort_insert_map. auto. Qed.
Lemma sort_map : forall v, list_sort lt (map f v) = pmap (fun x => x) f (list_sort lt' v).
Proof. intros. apply update_map. cbn. rewrite stable_sort_map. auto. Qed.
End Seq.

(** ** List programs *)

Section Stores.
Context {U T : Type} (f : U -> T).
Lemma upd_renames : forall t s v x (y : list T), renames f t s -> y = map f x ->
  renames f (fun w => if Nat.eqb w v then x else t w) (fun w => if Nat.eqb w v then y else s w).
Proof. intros t s v x y R E w. cbn. destruct (Nat.eqb w v); auto. Qed.
End Stores.

Section Lists.
Context {U T : Type} (f : U -> T) (eqb lt : T -> T -> bool) (eqb' lt' : U -> U -> bool)
  (show : T -> list ascii) (show' : U -> list ascii) (d : U).
Hypothesis EQ : forall a b, eqb (f a) (f b) = eqb' a b.
Hypothesis LT : forall a b, lt (f a) (f b) = lt' a b.
Hypothesis SH : forall a, show (f a) = show' a.

Lemma call_map : forall A A' (g : A -> A') (t : lstore U) (s : lstore T) v m m' out out',
  renames f t s -> m' (map f (t v)) = pmap g f (m (t v)) -> (forall a, out' (g a) = map (levent_map f) (out a)) ->
  same_run f (levent_map f) (call t v m out) (call s v m' out').
Proof.
  intros A A' g t s v m m' out out' R H O. unfold call. rewrite (R v), H. destruct (m (t v)) as [[a|e|u|] l]; cbn; auto.
  - eexists. split; [rewrite O; reflexivity|]. apply upd_renames; auto.
  - eexists. split; [reflexivity|]. apply upd_renames; auto.
Qed.
Lemma lemit_map : forall A A' (g : A -> A') (t : lstore U) (s : lstore T) o o' ev ev',
  renames f t s -> o' = omap g o -> (forall a, ev' (g a) = levent_map f (ev a)) ->
  same_run f (levent_map f) (lemit t o ev) (lemit s o' ev').
Proof.
  intros A A' g t s o o' ev ev' R -> O. destruct o; cbn; auto; eexists; (split; [rewrite ?O; reflexivity|auto]).
Qed.
Lemma lassign_map : forall (t : lstore U) (s : lstore T) v o o', renames f t s -> o' = omap (map f) o ->
  same_run f (levent_map f) (lassign t v o) (lassign s v o').
Proof.
  intros t s v o o' R ->. destruct o; cbn; auto; eexists; (split; [reflexivity|auto]). apply upd_renames; auto.
Qed.

Lemma lstep_map : forall c c' (t : lstore U) (s : lstore T), lrename f c c' -> renames f t s ->
  same_run f (levent_map f) (lstep eqb' lt' show' d c t) (lstep eqb lt show (f d) c' s).
Proof.
  intros c c' t s C R. destruct C; cbn [lstep].
  all: try (eapply call_map; [eauto| |intros; cbn; try reflexivity];
    first [apply set_map|apply insert_map|apply remove_map|apply append_map|apply subtract_map; auto|apply times_assign_map
      |apply divide_map; auto|apply shr_map|apply shl_map|apply reverse_map|apply uniquify_map; auto|apply sort_map; auto
      |apply erase_map|apply for_each_map; auto|apply filter_map_; auto|apply clear_map]; fail).
  - eexists. split; [reflexivity|]. apply upd_renames; auto.
  - eexists. split; [reflexivity|]. apply upd_renames; auto.
  - destruct (Nat.eqb v w); cbn; auto. eexists. split; [reflexivity|]. apply upd_renames; auto. apply upd_renames; auto.
  - rewrite (R v). eapply lemit_map; eauto. apply at_map. reflexivity.
  - eapply (call_map _ _ (fun x => x)); [exact R| |reflexivity]. rewrite at_map. destruct (list_at (t v) k); cbn; auto. apply insert_map.
  - rewrite (R w). eapply (call_map _ _ (fun x => x)); [exact R| |reflexivity]. apply append_list_map.
  - rewrite (R v), (R w), !size_map. destruct (_ <=? _); [|eexists; split; [reflexivity|exact R]]. destruct (Nat.eqb v w); [reflexivity|].
    eapply (call_map _ _ (fun x => x)); [exact R| |reflexivity]. apply extend_map.
  - rewrite (R v). apply lassign_map; auto. apply slice_map.
  - rewrite (R v), (R w). apply lassign_map; auto. apply plus_list_map.
  - rewrite (R v). apply lassign_map; auto. unfold list_plus, on_copy. rewrite append_map. destruct (list_append x (t v)) as [[]]; reflexivity.
  - rewrite (R v). apply lassign_map; auto. unfold list_minus, on_copy. rewrite (subtract_map f eqb eqb' EQ). destruct (list_subtract eqb' x (t v)) as [[]]; reflexivity.
  - rewrite (R v). apply lassign_map; auto. unfold list_over, on_copy. rewrite (divide_map f eqb eqb' EQ). destruct (list_divide eqb' (Val x) (t v)) as [[]]; reflexivity.
  - rewrite (R v). apply lassign_map; auto. apply times_map.
  - rewrite (R v). rewrite (index_map f eqb eqb' EQ). eapply (lemit_map _ _ (fun x => x)); eauto. destruct (list_index eqb' (t v) x a b); auto.
  - rewrite (R v). unfold list_contains. rewrite (index_map f eqb eqb' EQ). eapply (lemit_map _ _ (fun x => x)); eauto. destruct (list_index eqb' (t v) x a b); auto.
  - rewrite (R v). unfold list_count. rewrite (count_map_ f eqb eqb' EQ). eapply (lemit_map _ _ (fun x => x)); eauto.
  - rewrite (R v), size_map. eapply (lemit_map _ _ (fun x => x)); eauto.
  - rewrite (R v). eapply (lemit_map _ _ (fun x => x)); eauto. destruct (t v); reflexivity.
  - rewrite (R v), (R w), (eqb_map f eqb eqb' EQ). eapply (lemit_map _ _ (fun x => x)); eauto.
  - rewrite (R v). unfold list_print. rewrite (print_map f show show' SH). eapply (lemit_map _ _ (fun x => x)); eauto.
Qed.

Lemma lrun_map : forall prog prog' (t : lstore U) (s : lstore T), Forall2 (lrename f) prog prog' -> renames f t s ->
  same_run f (levent_map f) (lrun eqb' lt' show' d prog t) (lrun eqb lt show (f d) prog' s).
Proof.
  intros prog prog' t s H. revert t s. induction H; intros t s R; cbn [lrun].
  - cbn. eauto.
  - pose proof (lstep_map x y t s H R) as S1. destruct (lstep eqb' lt' show' d x t) as [[t1 ev]|e|u|]; cbn in S1 |- *.
    + destruct S1 as (s1 & -> & R1). cbn [bind fst snd]. pose proof (IHForall2 t1 s1 R1) as S2.
      destruct (lrun eqb' lt' show' d l t1) as [[t2 ev2]|e|u|]; cbn in S2 |- *.
      * destruct S2 as (s2 & -> & R2). cbn. eexists. rewrite map_app. eauto.
      * rewrite S2. auto.
      * rewrite S2. auto.
      * rewrite S2. auto.
    + rewrite S1. auto.
    + rewrite S1. auto.
    + rewrite S1. auto.
Qed.
End Lists.

(** ** Deque programs *)

Section Deques.
Context {U T : Type} (f : U -> T) (eqb : T -> T -> bool) (eqb' : U -> U -> bool)
  (show : T -> list ascii) (show' : U -> list ascii).
Hypothesis EQ : forall a b, eqb (f a) (f b) = eqb' a b.
Hypothesis SH : forall a, show (f a) = show' a.

Lemma back_map : forall v, deq_back (map f v) = omap f (deq_back v).
Proof. intros. unfold deq_back. rewrite size_map, <- map_rev. apply bind_same. intros _. destruct (rev v); auto. Qed.
Lemma front_map : forall v, deq_front (map f v) = omap f (deq_front v).
Proof. intros. unfold deq_front. rewrite size_map. apply bind_same. intros _. destruct v; auto. Qed.
Lemma dat_map : forall v i, deq_at (map f v) i = omap f (deq_at v i).
Proof.
  intros. unfold deq_at. rewrite size_map. apply bind_same. intros. apply bind_same. intros _.
  destruct (0 <=? i); [apply vat_map|]. apply bind_same. intros. apply vat_map.
Qed.
Lemma removelast_map : forall v, removelast (map f v) = map f (removelast v).
Proof. induction v as [|x [|y v] IH]; cbn in *; auto. rewrite IH. auto. Qed.
Lemma set_back_map : forall x v, deq_set_back (f x) (map f v) = pmap (fun x => x) f (deq_set_back x v).
Proof.
  intros. apply update_map. rewrite size_map. apply bind_same. intros _. destruct v; auto.
  rewrite (removelast_map (u :: v)). cbn [map omap]. rewrite map_app. auto.
Qed.
Lemma set_front_map : forall x v, deq_set_front (f x) (map f v) = pmap (fun x => x) f (deq_set_front x v).
Proof. intros. apply update_map. rewrite size_map. apply bind_same. intros _. destruct v; auto. Qed.
Lemma dset_map : forall i x v, deq_set i (f x) (map f v) = pmap (fun x => x) f (deq_set i x v).
Proof.
  intros. apply update_map. rewrite size_map. apply bind_same. intros. apply bind_same. intros _.
  destruct (0 <=? i); [apply vput_map|]. apply bind_same. intros. apply vput_map.
Qed.
Lemma push_back_map : forall x v, deq_push_back (f x) (map f v) = pmap (fun x => x) f (deq_push_back x v).
Proof. intros. apply update_map. rewrite size_map. apply bind_same. intros _. cbn. rewrite map_app. auto. Qed.
Lemma push_front_map : forall x v, deq_push_front (f x) (map f v) = pmap (fun x => x) f (deq_push_front x v).
Proof. intros. apply update_map. rewrite size_map. apply bind_same. intros _. auto. Qed.
Lemma pop_back_map : forall v, deq_pop_back (map f v) = pmap f f (deq_pop_back v).
Proof.
  intros. unfold deq_pop_back. rewrite size_map, removelast_map, <- map_rev. destruct (check_empty (size v)); try reflexivity.
  destruct (rev v); reflexivity.
Qed.
Lemma pop_front_map : forall v, deq_pop_front (map f v) = pmap f f (deq_pop_front v).
Proof. intros. unfold deq_pop_front. rewrite size_map. destruct (check_empty (size v)); try reflexivity. destruct v; reflexivity. Qed.
Lemma extend_back_map : forall w v, deq_extend_back (map f w) (map f v) = pmap (fun x => x) f (deq_extend_back w v).
Proof. intros. apply update_map. cbn. rewrite map_app. auto. Qed.
Lemma extend_front_map : forall w v, deq_extend_front (map f w) (map f v) = pmap (fun x => x) f (deq_extend_front w v).
Proof. intros. apply update_map. cbn. rewrite map_app. auto. Qed.
Lemma dshl_map : forall n v, deq_shl n (map f v) = pmap (fun x => x) f (deq_shl n v).
Proof. exact (shl_map f). Qed.
Lemma dshr_map : forall n v, deq_shr n (map f v) = pmap (fun x => x) f (deq_shr n v).
Proof. exact (shr_map f). Qed.

Lemma dcall_map : forall A A' (g : A -> A') (t : dstore U) (s : dstore T) v m m' out out',
  renames f t s -> m' (map f (t v)) = pmap g f (m (t v)) -> (forall a, out' (g a) = map (devent_map f) (out a)) ->
  same_run f (devent_map f) (dcall t v m out) (dcall s v m' out').
Proof.
  intros A A' g t s v m m' out out' R H O. unfold dcall. rewrite (R v), H. destruct (m (t v)) as [[a|e|u|] l]; cbn; auto.
  - eexists. split; [rewrite O; reflexivity|]. apply upd_renames; auto.
  - eexists. split; [reflexivity|]. apply upd_renames; auto.
Qed.
Lemma demit_map : forall A A' (g : A -> A') (t : dstore U) (s : dstore T) o o' ev ev',
  renames f t s -> o' = omap g o -> (forall a, ev' (g a) = (devent_map f) (ev a)) ->
  same_run f (devent_map f) (demit t o ev) (demit s o' ev').
Proof.
  intros A A' g t s o o' ev ev' R -> O. destruct o; cbn; auto; eexists; (split; [rewrite ?O; reflexivity|auto]).
Qed.

Lemma dstep_map : forall c (t : dstore U) (s : dstore T), renames f t s ->
  same_run f (devent_map f) (dstep eqb' show' c t) (dstep eqb show (dstmt_map f c) s).
Proof.
  intros c t s R. destruct c; cbn [dstep dstmt_map].
  all: try (eapply dcall_map; [eauto| |intros; cbn; try reflexivity];
    first [apply set_back_map|apply set_front_map|apply dset_map|apply push_back_map|apply push_front_map|apply pop_back_map|apply pop_front_map
      |apply dshr_map|apply dshl_map|apply reverse_map|apply clear_map]; fail).
  - eexists. split; [reflexivity|]. apply upd_renames; auto.
  - eexists. split; [reflexivity|]. apply upd_renames; auto.
  - destruct (Nat.eqb v w); cbn; auto. eexists. split; [reflexivity|]. apply upd_renames; auto. apply upd_renames; auto.
  - rewrite (R v). eapply demit_map; eauto. apply back_map. reflexivity.
  - rewrite (R v). eapply demit_map; eauto. apply front_map. reflexivity.
  - rewrite (R v). eapply demit_map; eauto. apply dat_map. reflexivity.
  - rewrite (R v), (R w), !size_map. destruct (_ <=? _); [|eexists; split; [reflexivity|exact R]]. destruct (Nat.eqb v w); [reflexivity|].
    eapply (dcall_map _ _ (fun x => x)); [exact R| |reflexivity]. apply extend_back_map.
  - rewrite (R v), (R w), !size_map. destruct (_ <=? _); [|eexists; split; [reflexivity|exact R]]. destruct (Nat.eqb v w); [reflexivity|].
    eapply (dcall_map _ _ (fun x => x)); [exact R| |reflexivity]. apply extend_front_map.
  - rewrite (R v), size_map. eapply (demit_map _ _ (fun x => x)); eauto.
  - rewrite (R v). eapply (demit_map _ _ (fun x => x)); eauto. destruct (t v); auto.
  - rewrite (R v), (R w). unfold deq_eqb. rewrite (eqb_map f eqb eqb' EQ). eapply (demit_map _ _ (fun x => x)); eauto.
  - rewrite (R v). unfold deq_print. rewrite (print_map f show show' SH). eapply (demit_map _ _ (fun x => x)); eauto.
Qed.

Lemma drun_map : forall prog (t : dstore U) (s : dstore T), renames f t s ->
  same_run f (devent_map f) (drun eqb' show' prog t) (drun eqb show (map (dstmt_map f) prog) s).
Proof.
  induction prog as [|x l IH]; intros t s R; cbn [drun map].
  - cbn. eauto.
  - pose proof (dstep_map x t s R) as S1. destruct (dstep eqb' show' x t) as [[t1 ev]|e|u|]; cbn in S1 |- *.
    + destruct S1 as (s1 & -> & R1). cbn [bind fst snd]. pose proof (IH t1 s1 R1) as S2.
      destruct (drun eqb' show' l t1) as [[t2 ev2]|e|u|]; cbn in S2 |- *.
      * destruct S2 as (s2 & -> & R2). cbn. eexists. rewrite map_app. eauto.
      * rewrite S2. auto.
      * rewrite S2. auto.
      * rewrite S2. auto.
    + rewrite S1. auto.
    + rewrite S1. auto.
    + rewrite S1. auto.
Qed.
End Deques.

(** ** Set programs *)

Section Sets.
Context {U T : Type} (f : U -> T) (lt : T -> T -> bool) (lt' : U -> U -> bool).
Hypothesis LT : forall a b, lt (f a) (f b) = lt' a b.

Lemma lower_map : forall x l, lower_bound lt (f x) (map f l) = (map f (fst (lower_bound lt' x l)), map f (snd (lower_bound lt' x l))).
Proof. induction l; cbn; auto. rewrite LT. destruct (lt' a x); auto. rewrite IHl. destruct (lower_bound lt' x l). auto. Qed.
Lemma contains_map : forall x l, std_contains lt (f x) (map f l) = std_contains lt' x l.
Proof. intros. unfold std_contains. rewrite lower_map. cbn [snd]. destruct (snd (lower_bound lt' x l)); cbn; auto. rewrite LT. auto. Qed.
Lemma sinsert_map : forall x l, std_insert lt (f x) (map f l) = (fst (std_insert lt' x l), map f (snd (std_insert lt' x l))).
Proof.
  intros. unfold std_insert. rewrite lower_map. destruct (lower_bound lt' x l) as [a [|y b]]; cbn; rewrite ?map_app; auto.
  rewrite LT. destruct (lt' x y); cbn; rewrite ?map_app; auto.
Qed.
Lemma serase_map : forall x l, std_erase lt (f x) (map f l) = (fst (std_erase lt' x l), map f (snd (std_erase lt' x l))).
Proof.
  intros. unfold std_erase. rewrite lower_map. destruct (lower_bound lt' x l) as [a [|y b]]; cbn; auto.
  rewrite LT. destruct (lt' x y); cbn; rewrite ?map_app; auto.
Qed.
Lemma range_map : forall xs l, std_insert_range lt (map f xs) (map f l) = map f (std_insert_range lt' xs l).
Proof. unfold std_insert_range. induction xs; intros; cbn; auto. rewrite sinsert_map. cbn. auto. Qed.
Lemma set_of_map : forall xs, set_of lt (map f xs) = map f (set_of lt' xs).
Proof. intros. apply (range_map xs []). Qed.
Lemma includes_map : forall l m, std_includes lt (map f l) (map f m) = std_includes lt' l m.
Proof. induction l; destruct m; cbn; auto. rewrite !LT. rewrite <- !IHl. auto. Qed.
Lemma intersection_map : forall l m, std_intersection lt (map f l) (map f m) = map f (std_intersection lt' l m).
Proof.
  induction l; [destruct m; auto|]. induction m; [auto|]. cbn in *. rewrite !LT. rewrite IHm.
  change (f a0 :: map f m) with (map f (a0 :: m)). rewrite !IHl. destruct (lt' a a0); auto. destruct (lt' a0 a); auto.
Qed.
Lemma union_map : forall l m, std_union lt (map f l) (map f m) = map f (std_union lt' l m).
Proof.
  induction l; [destruct m; auto|]. induction m; [auto|]. cbn in *. rewrite !LT. rewrite IHm.
  change (f a0 :: map f m) with (map f (a0 :: m)). rewrite !IHl. destruct (lt' a a0); auto. destruct (lt' a0 a); auto.
Qed.
Lemma difference_map : forall l m, std_difference lt (map f l) (map f m) = map f (std_difference lt' l m).
Proof.
  induction l; [destruct m; auto|]. induction m; [auto|]. cbn in *. rewrite !LT. rewrite IHm.
  change (f a0 :: map f m) with (map f (a0 :: m)). rewrite !IHl. destruct (lt' a a0); auto. destruct (lt' a0 a); auto.
Qed.
Lemma symmetric_map : forall l m, std_symmetric_difference lt (map f l) (map f m) = map f (std_symmetric_difference lt' l m).
Proof.
  induction l; [destruct m; auto|]. induction m; [auto|]. cbn in *. rewrite !LT. rewrite IHm.
  change (f a0 :: map f m) with (map f (a0 :: m)). rewrite !IHl. destruct (lt' a a0); auto. destruct (lt' a0 a); auto.
Qed.
Lemma and_map : forall a b, set_and lt (map f a) (map f b) = map f (set_and lt' a b).
Proof. intros. unfold set_and. rewrite intersection_map. apply (range_map _ []). Qed.
Lemma or_map : forall a b, set_or lt (map f a) (map f b) = map f (set_or lt' a b).
Proof. intros. unfold set_or. rewrite union_map. apply (range_map _ []). Qed.
Lemma sub_map : forall a b, set_sub lt (map f a) (map f b) = map f (set_sub lt' a b).
Proof. intros. unfold set_sub. rewrite difference_map. apply (range_map _ []). Qed.
Lemma xor_map : forall a b, set_xor lt (map f a) (map f b) = map f (set_xor lt' a b).
Proof. intros. unfold set_xor. rewrite symmetric_map. apply (range_map _ []). Qed.
Lemma sle_map : forall a b, set_le lt (map f a) (map f b) = set_le lt' a b.
Proof. intros. apply includes_map. Qed.
Lemma slt_map : forall a b, set_lt lt (map f a) (map f b) = set_lt lt' a b.
Proof. intros. unfold set_lt. rewrite !size_map, sle_map. auto. Qed.
Lemma min_map : forall a, set_min (map f a) = omap f (set_min a).
Proof. intros. unfold set_min. rewrite size_map. apply bind_same. intros _. destruct a; auto. Qed.
Lemma max_map : forall a, set_max (map f a) = omap f (set_max a).
Proof. intros. unfold set_max. rewrite size_map, <- map_rev. apply bind_same. intros _. destruct (rev a); auto. Qed.
Lemma add_map : forall x a, set_add lt (f x) (map f a) = pmap (fun x => x) f (set_add lt' x a).
Proof.
  intros. unfold set_add. rewrite size_map, sinsert_map. destruct (check_full (size a) INT_MAX); try reflexivity.
  destruct (std_insert lt' x a). reflexivity.
Qed.
Lemma sremove_map : forall x a, set_remove lt (f x) (map f a) = pmap (fun x => x) f (set_remove lt' x a).
Proof. intros. unfold set_remove. rewrite serase_map. destruct (std_erase lt' x a). reflexivity. Qed.
Lemma pop_map : forall a, set_pop (map f a) = pmap f f (set_pop a).
Proof. intros. unfold set_pop. rewrite size_map. destruct (check_empty (size a)); try reflexivity. destruct a; reflexivity. Qed.
Lemma sextend_map : forall xs a, set_extend lt (map f xs) (map f a) = pmap (fun x => x) f (set_extend lt' xs a).
Proof. intros. apply update_map. cbn [omap]. rewrite range_map. auto. Qed.
Lemma sclear_map : forall a, set_clear (map f a) = pmap (fun x => x) f (set_clear a).
Proof. intros. apply update_map. auto. Qed.
Lemma and_assign_map : forall b a, set_and_assign lt (map f b) (map f a) = pmap (fun x => x) f (set_and_assign lt' b a).
Proof. intros. apply update_map. cbn [omap]. rewrite and_map. auto. Qed.
Lemma or_assign_map : forall b a, set_or_assign lt (map f b) (map f a) = pmap (fun x => x) f (set_or_assign lt' b a).
Proof. intros. apply update_map. cbn [omap]. rewrite or_map. auto. Qed.
Lemma sub_assign_map : forall b a, set_sub_assign lt (map f b) (map f a) = pmap (fun x => x) f (set_sub_assign lt' b a).
Proof. intros. apply update_map. cbn [omap]. rewrite sub_map. auto. Qed.
Lemma xor_assign_map : forall b a, set_xor_assign lt (map f b) (map f a) = pmap (fun x => x) f (set_xor_assign lt' b a).
Proof. intros. apply update_map. cbn [omap]. rewrite xor_map. auto. Qed.

Variables (eqb : T -> T -> bool) (eqb' : U -> U -> bool) (show : T -> list ascii) (show' : U -> list ascii).
Hypothesis EQ : forall a b, eqb (f a) (f b) = eqb' a b.
Hypothesis SH : forall a, show (f a) = show' a.

Lemma tcall_map : forall A A' (g : A -> A') (t : tstore U) (s : tstore T) v m m' out out',
  renames f t s -> m' (map f (t v)) = pmap g f (m (t v)) -> (forall a, out' (g a) = map (tevent_map f) (out a)) ->
  same_run f (tevent_map f) (tcall t v m out) (tcall s v m' out').
Proof.
  intros A A' g t s v m m' out out' R H O. unfold tcall. rewrite (R v), H. destruct (m (t v)) as [[a|e|u|] l]; cbn; auto.
  - eexists. split; [rewrite O; reflexivity|]. apply upd_renames; auto.
  - eexists. split; [reflexivity|]. apply upd_renames; auto.
Qed.
Lemma temit_map : forall A A' (g : A -> A') (t : tstore U) (s : tstore T) o o' ev ev',
  renames f t s -> o' = omap g o -> (forall a, ev' (g a) = (tevent_map f) (ev a)) ->
  same_run f (tevent_map f) (temit t o ev) (temit s o' ev').
Proof.
  intros A A' g t s o o' ev ev' R -> O. destruct o; cbn; auto; eexists; (split; [rewrite ?O; reflexivity|auto]).
Qed.
Lemma tguard_map : forall (t : tstore U) (s : tstore T) n a k k', renames f t s -> same_run f (tevent_map f) k k' ->
  same_run f (tevent_map f) (tguard t n a k) (tguard s n (map f a) k').
Proof. intros. unfold tguard. rewrite size_map. destruct (_ <=? _); auto. cbn. eauto. Qed.
Lemma tassign_map : forall (t : tstore U) (s : tstore T) v x y, renames f t s -> y = map f x ->
  same_run f (tevent_map f) (Ok (tset t v x, [])) (Ok (tset s v y, [])).
Proof. intros. eexists. split; [reflexivity|]. apply upd_renames; auto. Qed.

Lemma tstep_map : forall c (t : tstore U) (s : tstore T), renames f t s ->
  same_run f (tevent_map f) (tstep lt' eqb' show' c t) (tstep lt eqb show (tstmt_map f c) s).
Proof.
  intros c t s R. destruct c; cbn [tstep tstmt_map].
  all: rewrite ?(R u), ?(R v), ?(R w), ?size_map, ?len_map.
  all: try (apply tguard_map; [exact R|]).
  all: try (apply tassign_map; [exact R|]; first [apply set_of_map|apply and_map|apply or_map|apply sub_map|apply xor_map|auto]; fail).
  all: try (eapply tcall_map; [eauto| |intros; cbn; try reflexivity];
    first [apply add_map|apply sremove_map|apply pop_map|apply sextend_map|apply sclear_map|apply and_assign_map|apply or_assign_map
      |apply sub_assign_map|apply xor_assign_map]; fail).
  - destruct (Nat.eqb v w); cbn; auto. eexists. split; [reflexivity|]. apply upd_renames; auto. apply upd_renames; auto.
  - destruct (Nat.eqb v w); [reflexivity|]. eapply (tcall_map _ _ (fun x => x)); [exact R| |reflexivity]. apply sextend_map.
  - unfold set_contains. rewrite contains_map. eapply (temit_map _ _ (fun x => x)); eauto.
  - eapply temit_map; eauto. apply min_map. reflexivity.
  - eapply temit_map; eauto. apply max_map. reflexivity.
  - eapply (temit_map _ _ (fun x => x)); eauto.
  - eapply (temit_map _ _ (fun x => x)); eauto. destruct (t v); auto.
  - unfold set_eqb. rewrite (eqb_map f eqb eqb' EQ). eapply (temit_map _ _ (fun x => x)); eauto.
  - rewrite slt_map. eapply (temit_map _ _ (fun x => x)); eauto.
  - rewrite sle_map. eapply (temit_map _ _ (fun x => x)); eauto.
  - unfold set_gt. rewrite slt_map. eapply (temit_map _ _ (fun x => x)); eauto.
  - unfold set_ge. rewrite sle_map. eapply (temit_map _ _ (fun x => x)); eauto.
  - eexists. split; [|exact R]. rewrite !map_map. auto.
  - unfold set_print. rewrite (print_map f show show' SH). eapply (temit_map _ _ (fun x => x)); eauto.
Qed.

Lemma trun_map : forall prog (t : tstore U) (s : tstore T), renames f t s ->
  same_run f (tevent_map f) (trun lt' eqb' show' prog t) (trun lt eqb show (map (tstmt_map f) prog) s).
Proof.
  induction prog as [|x l IH]; intros t s R; cbn [trun map].
  - cbn. eauto.
  - pose proof (tstep_map x t s R) as S1. destruct (tstep lt' eqb' show' x t) as [[t1 ev]|e|u|]; cbn in S1 |- *.
    + destruct S1 as (s1 & -> & R1). cbn [bind fst snd]. pose proof (IH t1 s1 R1) as S2.
      destruct (trun lt' eqb' show' l t1) as [[t2 ev2]|e|u|]; cbn in S2 |- *.
      * destruct S2 as (s2 & -> & R2). cbn. eexists. rewrite map_app. eauto.
      * rewrite S2. auto.
      * rewrite S2. auto.
      * rewrite S2. auto.
    + rewrite S1. auto.
    + rewrite S1. auto.
    + rewrite S1. auto.
Qed.
End Sets.

(** ** Dict programs *)

Section Dicts.
Context {K K' V V' : Type} (f : K -> K') (g : V -> V') (ltk : K' -> K' -> bool) (ltk' : K -> K -> bool).
Hypothesis LK : forall a b, ltk (f a) (f b) = ltk' a b.
Notation h := (both_map f g).

Lemma mlower_map : forall k l, map_lower ltk (f k) (map h l) = (map h (fst (map_lower ltk' k l)), map h (snd (map_lower ltk' k l))).
Proof. induction l; cbn; auto. rewrite LK. destruct (ltk' (fst a) k); auto. rewrite IHl. destruct (map_lower ltk' k l). auto. Qed.
Lemma mfind_map : forall k l, map_find ltk (f k) (map h l) = option_map g (map_find ltk' k l).
Proof.
  intros. unfold map_find. rewrite mlower_map. cbn [snd]. destruct (snd (map_lower ltk' k l)); cbn; auto. rewrite LK. destruct (ltk' k (fst p)); auto.
Qed.
Lemma minsert_map : forall k x l, map_insert ltk (f k) (g x) (map h l) = (fst (map_insert ltk' k x l), map h (snd (map_insert ltk' k x l))).
Proof.
  intros. unfold map_insert. rewrite mlower_map. destruct (map_lower ltk' k l) as [a [|y b]]; cbn; rewrite ?map_app; auto.
  rewrite LK. destruct (ltk' k (fst y)); cbn; rewrite ?map_app; auto.
Qed.
Lemma merase_map : forall k l, map_erase ltk (f k) (map h l) = (fst (map_erase ltk' k l), map h (snd (map_erase ltk' k l))).
Proof.
  intros. unfold map_erase. rewrite mlower_map. destruct (map_lower ltk' k l) as [a [|y b]]; cbn; auto.
  rewrite LK. destruct (ltk' k (fst y)); cbn; rewrite ?map_app; auto.
Qed.
Lemma massign_map : forall k x l, map_assign ltk (f k) (g x) (map h l) = option_map (map h) (map_assign ltk' k x l).
Proof.
  intros. unfold map_assign. rewrite mlower_map. destruct (map_lower ltk' k l) as [a [|y b]]; cbn; auto.
  rewrite LK. destruct (ltk' k (fst y)); cbn; rewrite ?map_app; auto.
Qed.
Lemma mrange_map : forall xs l, map_insert_range ltk (map h xs) (map h l) = map h (map_insert_range ltk' xs l).
Proof.
  unfold map_insert_range. induction xs; intros; cbn; auto.
  change (f (fst a)) with (f (fst a)). rewrite minsert_map. cbn. auto.
Qed.
Lemma dict_of_map : forall xs, dict_of ltk (map h xs) = map h (dict_of ltk' xs).
Proof. intros. apply (mrange_map xs []). Qed.
Lemma dict_at_map : forall d k, dict_at ltk (map h d) (f k) = omap g (dict_at ltk' d k).
Proof. intros. unfold dict_at. rewrite mfind_map. destruct (map_find ltk' k d); auto. Qed.
Lemma dict_contains_map : forall d k, dict_contains ltk (map h d) (f k) = dict_contains ltk' d k.
Proof. intros. unfold dict_contains. rewrite mfind_map. destruct (map_find ltk' k d); auto. Qed.
Lemma dict_get_map : forall d k x, dict_get ltk (map h d) (f k) (g x) = omap g (dict_get ltk' d k x).
Proof. intros. unfold dict_get. rewrite dict_contains_map, dict_at_map. destruct (dict_contains ltk' d k); auto. Qed.
Lemma dict_set_map : forall k x d, dict_set ltk (f k) (g x) (map h d) = pmap (fun x => x) h (dict_set ltk' k x d).
Proof. intros. apply update_map. rewrite massign_map. destruct (map_assign ltk' k x d); auto. Qed.
Lemma dict_add_map : forall k x d, dict_add ltk (f k) (g x) (map h d) = pmap (fun x => x) h (dict_add ltk' k x d).
Proof.
  intros. unfold dict_add. rewrite size_map, minsert_map. destruct (check_full (size d) INT_MAX); try reflexivity.
  destruct (map_insert ltk' k x d). reflexivity.
Qed.
Lemma dict_remove_map : forall k d, dict_remove ltk (f k) (map h d) = pmap (fun x => x) h (dict_remove ltk' k d).
Proof. intros. unfold dict_remove. rewrite merase_map. destruct (map_erase ltk' k d). reflexivity. Qed.
Lemma dict_pop_map : forall d, dict_pop (map h d) = pmap h h (dict_pop d).
Proof. intros. unfold dict_pop. rewrite size_map. destruct (check_empty (size d)); try reflexivity. destruct d; reflexivity. Qed.
Lemma dict_extend_map : forall xs d, dict_extend ltk (map h xs) (map h d) = pmap (fun x => x) h (dict_extend ltk' xs d).
Proof. intros. apply update_map. cbn [omap]. rewrite mrange_map. auto. Qed.
Lemma dict_clear_map : forall d, dict_clear (map h d) = pmap (fun x => x) h (dict_clear d).
Proof. intros. apply update_map. auto. Qed.
Lemma dict_min_map : forall d, dict_min (map h d) = omap f (dict_min d).
Proof. intros [|p d]; auto. Qed.
Lemma dict_max_map : forall d, dict_max (map h d) = omap f (dict_max d).
Proof. intros. unfold dict_max. rewrite <- map_rev. destruct (rev d); auto. Qed.
Lemma add_all_map : forall X X' (e : X -> X') (lt : X' -> X' -> bool) (lt' : X -> X -> bool) p p',
  (forall a b, lt (e a) (e b) = lt' a b) -> (forall a, p' (h a) = e (p a)) -> forall d s,
  add_all lt p' (map h d) (map e s) = omap (map e) (add_all lt' p d s).
Proof.
  intros X X' e lt lt' p p' L P. induction d; intros s; cbn [add_all map]; auto. rewrite P, (add_map e lt lt' L).
  unfold pmap. destruct (set_add lt' (p a) s) as [[| | |] s']; cbn; auto.
Qed.

Variables (eqk : K' -> K' -> bool) (eqk' : K -> K -> bool) (ltv eqv : V' -> V' -> bool) (ltv' eqv' : V -> V -> bool).
Variables (showk : K' -> list ascii) (showk' : K -> list ascii) (showv : V' -> list ascii) (showv' : V -> list ascii).
Hypothesis EK : forall a b, eqk (f a) (f b) = eqk' a b.
Hypothesis LV : forall a b, ltv (g a) (g b) = ltv' a b.
Hypothesis EV : forall a b, eqv (g a) (g b) = eqv' a b.
Hypothesis SK : forall a, showk (f a) = showk' a.
Hypothesis SV : forall a, showv (g a) = showv' a.

Lemma keys_map : forall d, dict_keys ltk (map h d) = omap (map f) (dict_keys ltk' d).
Proof. intros. apply (add_all_map _ _ f ltk ltk' fst fst LK (fun _ => eq_refl) d []). Qed.
Lemma values_map : forall d, dict_values ltv (map h d) = omap (map g) (dict_values ltv' d).
Proof. intros. apply (add_all_map _ _ g ltv ltv' snd snd LV (fun _ => eq_refl) d []). Qed.
Lemma items_map : forall d, dict_items ltk ltv (map h d) = omap (map h) (dict_items ltk' ltv' d).
Proof.
  intros. refine (add_all_map _ _ h (pair_lt ltk ltv) (pair_lt ltk' ltv') (fun p => p) (fun p => p) _ (fun _ => eq_refl) d []).
  intros a b. unfold pair_lt. cbn. rewrite !LK, LV. auto.
Qed.

Lemma mcall_map : forall A A' (q : A -> A') (t : mstore K V) (s : mstore K' V') v m m' out out',
  renames h t s -> m' (map h (t v)) = pmap q h (m (t v)) -> (forall a, out' (q a) = map (mevent_map f g) (out a)) ->
  same_run h (mevent_map f g) (mcall t v m out) (mcall s v m' out').
Proof.
  intros A A' q t s v m m' out out' R H O. unfold mcall. rewrite (R v), H. destruct (m (t v)) as [[a|e|u|] l]; cbn; auto.
  - eexists. split; [rewrite O; reflexivity|]. apply upd_renames; auto.
  - eexists. split; [reflexivity|]. apply upd_renames; auto.
Qed.
Lemma memit_map : forall A A' (q : A -> A') (t : mstore K V) (s : mstore K' V') o o' ev ev',
  renames h t s -> o' = omap q o -> (forall a, ev' (q a) = map (mevent_map f g) (ev a)) ->
  same_run h (mevent_map f g) (memit t o ev) (memit s o' ev').
Proof.
  intros A A' q t s o o' ev ev' R -> O. destruct o; cbn; auto; eexists; (split; [rewrite ?O; reflexivity|auto]).
Qed.
Lemma mguard_map : forall (t : mstore K V) (s : mstore K' V') n a k k', renames h t s -> same_run h (mevent_map f g) k k' ->
  same_run h (mevent_map f g) (mguard t n a k) (mguard s n (map h a) k').
Proof. intros. unfold mguard. rewrite size_map. destruct (_ <=? _); auto. cbn. eauto. Qed.

Lemma mstep_map : forall c (t : mstore K V) (s : mstore K' V'), renames h t s ->
  same_run h (mevent_map f g) (mstep ltk' eqk' ltv' eqv' showk' showv' c t) (mstep ltk eqk ltv eqv showk showv (mstmt_map f g c) s).
Proof.
  intros c t s R. destruct c; cbn [mstep mstmt_map].
  all: rewrite ?(R u), ?(R v), ?(R w), ?size_map, ?len_map.
  all: try (apply mguard_map; [exact R|]).
  all: try (eapply mcall_map; [eauto| |intros; cbn; try reflexivity];
    first [apply dict_set_map|apply dict_add_map|apply dict_remove_map|apply dict_pop_map|apply dict_extend_map|apply dict_clear_map]; fail).
  - eexists. split; [reflexivity|]. apply upd_renames; auto. apply dict_of_map.
  - eexists. split; [reflexivity|]. apply upd_renames; auto.
  - destruct (Nat.eqb v w); cbn; auto. eexists. split; [reflexivity|]. apply upd_renames; auto. apply upd_renames; auto.
  - eapply memit_map; eauto. apply dict_at_map. reflexivity.
  - eapply memit_map; eauto. apply dict_get_map. reflexivity.
  - rewrite dict_contains_map. eapply (memit_map _ _ (fun x => x)); eauto.
  - destruct (Nat.eqb v w); [reflexivity|]. eapply (mcall_map _ _ (fun x => x)); [exact R| |reflexivity]. apply dict_extend_map.
  - eapply memit_map; eauto. apply dict_min_map. reflexivity.
  - eapply memit_map; eauto. apply dict_max_map. reflexivity.
  - eapply memit_map; eauto. apply keys_map. intros. rewrite !map_map. reflexivity.
  - eapply memit_map; eauto. apply values_map. intros. rewrite !map_map. reflexivity.
  - eapply memit_map; eauto. apply items_map. intros. rewrite !map_map. reflexivity.
  - eapply (memit_map _ _ (fun x => x)); eauto.
  - eapply (memit_map _ _ (fun x => x)); eauto. destruct (t v); auto.
  - unfold dict_eqb.
    rewrite (eqb_map h _ (fun p q => eqk' (fst p) (fst q) && eqv' (snd p) (snd q))) by (intros; cbn; rewrite EK, EV; auto).
    eapply (memit_map _ _ (fun x => x)); eauto.
  - eexists. split; [|exact R]. rewrite !map_map. auto.
  - unfold dict_print. rewrite (print_map h _ (show_pair showk' showv')) by (intros; unfold show_pair; cbn; rewrite SK, SV; auto).
    eapply (memit_map _ _ (fun x => x)); eauto.
Qed.

Lemma mrun_map : forall prog (t : mstore K V) (s : mstore K' V'), renames h t s ->
  same_run h (mevent_map f g) (mrun ltk' eqk' ltv' eqv' showk' showv' prog t) (mrun ltk eqk ltv eqv showk showv (map (mstmt_map f g) prog) s).
Proof.
  induction prog as [|x l IH]; intros t s R; cbn [mrun map].
  - cbn. eauto.
  - pose proof (mstep_map x t s R) as S1. destruct (mstep ltk' eqk' ltv' eqv' showk' showv' x t) as [[t1 ev]|e|u|]; cbn in S1 |- *.
    + destruct S1 as (s1 & -> & R1). cbn [bind fst snd]. pose proof (IH t1 s1 R1) as S2.
      destruct (mrun ltk' eqk' ltv' eqv' showk' showv' l t1) as [[t2 ev2]|e|u|]; cbn in S2 |- *.
      * destruct S2 as (s2 & -> & R2). cbn. eexists. rewrite map_app. eauto.
      * rewrite S2. auto.
      * rewrite S2. auto.
      * rewrite S2. auto.
    + rewrite S1. auto.
    + rewrite S1. auto.
    + rewrite S1. auto.
Qed.
End Dicts.
