(** Property C165: the confidence band on a plot is the region between the bounds. *)
From Coquelicot Require Import Coquelicot.
From Coq Require Import String.
From Coq Require Import List Arith Reals Lra Lia Bool.
From Verif Require Import Base RealFacts Ext ConvertModel DistModel DistSpec DistProofs CIModel CISpec CIProofs CIProofs2 BandModel BandSpec.
Import ListNotations.
Open Scope R_scope.

(** ** Counting edges *)
Lemma edges_app p l a r : edges_above p (l ++ a :: r) = (edges_above p (l ++ [a]) + edges_above p (a :: r))%nat.
Proof.
  induction l as [|b l IH]; [reflexivity|]. destruct l as [|c l].
  - cbn [app] in *. cbn [edges_above]. destruct r; cbn [edges_above]; lia.
  - cbn [app] in *. change (edges_above p (b :: c :: l ++ a :: r)) with ((if above p b c then 1 else 0) + edges_above p (c :: l ++ a :: r))%nat.
    change (edges_above p (b :: c :: l ++ [a])) with ((if above p b c then 1 else 0) + edges_above p (c :: l ++ [a]))%nat. lia.
Qed.
Lemma chord_sym a b x : fst a <> fst b -> chord a b x = chord b a x.
Proof. intros H. unfold chord. field. lra. Qed.
Lemma above_sym p a b : above p a b = above p b a.
Proof.
  unfold above. destruct (spans_dec a b (fst p)) as [S|S], (spans_dec b a (fst p)) as [S'|S']; unfold spans in *; try tauto.
  rewrite (chord_sym a b) by lra. reflexivity.
Qed.
Lemma edges_rev p l : edges_above p (rev l) = edges_above p l.
Proof.
  induction l as [|a l IH]; [reflexivity|]. destruct l as [|b l]; [reflexivity|].
  change (rev (a :: b :: l)) with ((rev l ++ [b]) ++ [a]). rewrite <- app_assoc. change ([b] ++ [a]) with (b :: [a]). rewrite edges_app.
  change (rev l ++ [b]) with (rev (b :: l)). rewrite IH. cbn [edges_above]. rewrite (above_sym p b a). destruct l; lia.
Qed.
Lemma above_vertical p a b : fst a = fst b -> above p a b = false.
Proof. intros H. unfold above. destruct (spans_dec _ _ _) as [S|]; [unfold spans in S; lra|reflexivity]. Qed.

Lemma inside_band p a l b m : length l = length m -> fst a = fst b -> map fst l = map fst m ->
  (inside p ((a :: l) ++ rev (b :: m)) <-> Nat.odd (edges_above p (a :: l) + edges_above p (b :: m)) = true).
Proof.
  intros HL Hab Hlm. change (inside p ((a :: l) ++ rev (b :: m))) with (Nat.odd (edges_above p (((a :: l) ++ rev (b :: m)) ++ [a])) = true).
  enough (edges_above p (((a :: l) ++ rev (b :: m)) ++ [a]) = edges_above p (a :: l) + edges_above p (b :: m))%nat as -> by reflexivity.
  assert (exists i1 z1 i2 z2, a :: l = i1 ++ [z1] /\ b :: m = i2 ++ [z2] /\ fst z1 = fst z2) as (i1 & z1 & i2 & z2 & E1 & E2 & Z).
  { destruct (exists_last (l := a :: l)) as (i1 & z1 & E1); [discriminate|]. destruct (exists_last (l := b :: m)) as (i2 & z2 & E2); [discriminate|].
    exists i1, z1, i2, z2. split; [exact E1|]. split; [exact E2|]. assert (map fst (a :: l) = map fst (b :: m)) as K by (cbn; congruence).
    rewrite E1, E2, !map_app in K. cbn in K. apply app_inj_tail in K. tauto. }
  rewrite <- app_assoc. rewrite E1, E2, rev_app_distr. cbn [rev app]. rewrite <- app_assoc. cbn [app].
  rewrite edges_app. change (edges_above p (z1 :: z2 :: rev i2 ++ [a])) with ((if above p z1 z2 then 1 else 0) + edges_above p (z2 :: rev i2 ++ [a]))%nat.
  rewrite (above_vertical p z1 z2 Z). assert (z2 :: rev i2 = rev (b :: m)) as R by (rewrite E2, rev_app_distr; reflexivity).
  change (z2 :: rev i2 ++ [a]) with ((z2 :: rev i2) ++ [a]). rewrite R. cbn [rev]. rewrite <- app_assoc. cbn [app]. rewrite (edges_app p (rev m) b [a]).
  change (rev m ++ [b]) with (rev (b :: m)). rewrite edges_rev. cbn [edges_above]. rewrite (above_vertical p b a) by congruence. rewrite <- E2. cbn [edges_above]. lia.
Qed.

(** ** Monotone lines *)
Definition sorted_x (l : list (R * R)) : Prop := increasing (map fst l).
Lemma sorted_tail a l : sorted_x (a :: l) -> sorted_x l /\ forall c, In c l -> fst a < fst c.
Proof.
  intros H. split.
  - intros i j Hij. apply (H (S i) (S j)). cbn. rewrite map_length in *. lia.
  - intros c Hc. destruct (In_nth _ _ c Hc) as (k & Hk & <-). specialize (H 0%nat (S k)). cbn in H. rewrite map_length in H.
    specialize (H ltac:(lia)). rewrite (nth_indep _ 0 (fst c)) in H by (rewrite map_length; lia). rewrite map_nth in H. exact H.
Qed.
Lemma no_edges p l : (forall c, In c l -> fst p < fst c) -> edges_above p l = 0%nat.
Proof.
  induction l as [|a l IH]; intros H; [reflexivity|]. destruct l as [|b l]; [reflexivity|].
  change (edges_above p (a :: b :: l)) with ((if above p a b then 1 else 0) + edges_above p (b :: l))%nat.
  rewrite IH by (intros c Hc; apply H; now right). unfold above. destruct (spans_dec a b (fst p)) as [S|]; [|reflexivity].
  pose proof (H a (or_introl eq_refl)). pose proof (H b (or_intror (or_introl eq_refl))). unfold spans in S. lra.
Qed.
Lemma sorted_edges p l : sorted_x l ->
  (exists h, height l (fst p) h /\ edges_above p l = (if Rlt_dec (snd p) h then 1 else 0)%nat) \/ ((forall h, ~ height l (fst p) h) /\ edges_above p l = 0%nat).
Proof.
  induction l as [|a l IH]; intros H.
  - right. split; [|reflexivity]. intros h (u & a & b & v & E & _). destruct u; discriminate.
  - destruct (sorted_tail a l H) as [Hl Ha]. destruct l as [|b l].
    + right. split; [|reflexivity]. intros h (u & c & d & v & E & _). destruct u as [|? [|? ?]]; discriminate.
    + change (edges_above p (a :: b :: l)) with ((if above p a b then 1 else 0) + edges_above p (b :: l))%nat.
      destruct (sorted_tail b l Hl) as [_ Hb]. pose proof (Ha b (or_introl eq_refl)) as Hab.
      destruct (spans_dec a b (fst p)) as [S|S].
      * left. exists (chord a b (fst p)). split; [exists [], a, b, l; auto|]. rewrite (no_edges p (b :: l)).
        -- unfold above. destruct (spans_dec a b (fst p)); [|tauto]. destruct (Rlt_dec _ _); reflexivity.
        -- unfold spans in S. intros c [<-|Hc]; [lra|]. specialize (Hb c Hc). lra.
      * assert (above p a b = false) as -> by (unfold above; destruct (spans_dec a b (fst p)); tauto).
        destruct (IH Hl) as [(h & (u & c & d & v & E & Sc & Hh) & C)|[N C]].
        -- left. exists h. split; [|exact C]. exists (a :: u), c, d, v. cbn. rewrite E. auto.
        -- right. split; [|exact C]. intros h (u & c & d & v & E & Sc & Hh). destruct u as [|e u].
           ++ injection E as <- <- <-. tauto.
           ++ injection E as <- E. apply (N h). exists u, c, d, v. auto.
Qed.
Lemma height_unique l x h k : sorted_x l -> height l x h -> height l x k -> h = k.
Proof.
  intros H. induction l as [|a l IH]; intros (u & c & d & v & E & S & ->) (u' & c' & d' & v' & E' & S' & ->).
  - destruct u; discriminate.
  - destruct (sorted_tail a l H) as [Hl Ha].
    assert (forall u c d v, l = u ++ c :: d :: v -> In c l /\ In d l) as HI.
    { intros u0 c0 d0 v0 ->. split; apply in_or_app; right; [now left|right; now left]. }
    assert (forall e r u c d v, l = e :: r -> l = u ++ c :: d :: v -> fst e <= fst c /\ fst e < fst d) as HF.
    { intros e r u0 c0 d0 v0 L D. rewrite L in Hl. destruct (sorted_tail e r Hl) as [_ He]. rewrite L in D. destruct u0 as [|f u0]; cbn in D.
      - injection D as <- ->. split; [lra|]. apply He. now left.
      - injection D as <- ->. split; [left|]; apply He; apply in_or_app; right; [now left|right; now left]. }
    unfold spans in *. destruct u as [|e u], u' as [|e' u']; cbn in E, E'.
    + congruence.
    + injection E as <- ->. injection E' as <- E'. pose proof (Ha d (or_introl eq_refl)). destruct (HF d v _ _ _ _ eq_refl E'). lra.
    + injection E' as <- ->. injection E as <- E. pose proof (Ha d' (or_introl eq_refl)). destruct (HF d' v' _ _ _ _ eq_refl E). lra.
    + injection E as <- E. injection E' as <- E'. apply IH; [exact Hl|exists u, c, d, v|exists u', c', d', v']; auto.
Qed.
Lemma height_rev l x h : height (rev l) x h <-> height l x h.
Proof.
  assert (forall l h, height l x h -> height (rev l) x h) as K.
  { intros l0 h0 (u & a & b & v & -> & S & ->). exists (rev v), b, a, (rev u). split; [|split].
    - rewrite rev_app_distr. cbn. now rewrite <- !app_assoc.
    - unfold spans in *. tauto.
    - apply chord_sym. unfold spans in S. lra. }
  split; [|apply K]. intros H. rewrite <- (rev_involutive l). now apply K.
Qed.
Definition monotone_x (l : list (R * R)) : Prop := strictly_monotone (map fst l).
Lemma monotone_edges p l : monotone_x l ->
  (exists h, height l (fst p) h /\ edges_above p l = (if Rlt_dec (snd p) h then 1 else 0)%nat) \/ ((forall h, ~ height l (fst p) h) /\ edges_above p l = 0%nat).
Proof.
  intros [H|H]; [now apply sorted_edges|]. rewrite <- map_rev in H. rewrite <- edges_rev.
  destruct (sorted_edges p (rev l) H) as [(h & A & B)|[A B]]; [left; exists h; rewrite <- height_rev; auto|right; split; [|exact B]]. intros h. rewrite <- height_rev. apply A.
Qed.
Lemma monotone_unique l x h k : monotone_x l -> height l x h -> height l x k -> h = k.
Proof.
  intros [H|H]; [now apply height_unique|]. rewrite <- map_rev in H. rewrite <- (height_rev l x h), <- (height_rev l x k). now apply height_unique.
Qed.
(** Lines with the same abscissas have heights at the same places. *)
Lemma same_span l m x h : map fst l = map fst m -> height l x h -> exists k, height m x k.
Proof.
  intros E (u & a & b & v & -> & S & _). rewrite map_app in E. cbn in E.
  symmetry in E. apply map_eq_app in E. destruct E as (u' & m1 & -> & _ & E). apply map_eq_cons in E. destruct E as (a' & m2 & -> & Ea & E).
  apply map_eq_cons in E. destruct E as (b' & v' & -> & Eb & _). exists (chord a' b' x). exists u', a', b', v'. split; [reflexivity|]. split; [|reflexivity].
  unfold spans in *. now rewrite Ea, Eb.
Qed.

Lemma combine_fst {A B} (x : list A) (y : list B) : length x = length y -> map fst (combine x y) = x.
Proof. revert y. induction x as [|a x IH]; intros [|b y] H; cbn in *; try lia; [reflexivity|]. f_equal. apply IH. lia. Qed.
Lemma combine_app {A B} (x x' : list A) (y y' : list B) : length x = length y -> combine (x ++ x') (y ++ y') = combine x y ++ combine x' y'.
Proof. revert y. induction x as [|a x IH]; intros [|b y] H; cbn in *; try lia; [reflexivity|]. f_equal. apply IH. lia. Qed.
Lemma combine_rev {A B} (x : list A) (y : list B) : length x = length y -> combine (rev x) (rev y) = rev (combine x y).
Proof.
  revert y. induction x as [|a x IH]; intros [|b y] H; cbn in *; try lia; [reflexivity|]. rewrite combine_app by (rewrite !rev_length; lia). cbn. rewrite IH by lia. reflexivity.
Qed.

(** ** The property *)
Lemma region (l m : list (R * R)) x y : map fst l = map fst m -> monotone_x l ->
  (inside (x, y) (l ++ rev m) <-> exists h k, height l x h /\ height m x k /\ between_heights h k y).
Proof.
  intros E H. assert (monotone_x m) as H' by (unfold monotone_x in *; now rewrite <- E).
  destruct l as [|a l], m as [|b m]; try discriminate E.
  - split; [intros []|]. intros (h & k & (u & a & b & v & D & _) & _). destruct u; discriminate.
  - rewrite inside_band; [|apply (f_equal (@length R)) in E; cbn in E; rewrite !map_length in E; lia|cbn in E; congruence|cbn in E; congruence].
    destruct (monotone_edges (x, y) (a :: l) H) as [(h & Hh & ->)|[N ->]].
    + destruct (monotone_edges (x, y) (b :: m) H') as [(k & Hk & ->)|[N' ->]]; [|exfalso; destruct (same_span _ _ _ _ E Hh) as [k Hk]; exact (N' k Hk)].
      cbn [fst snd] in *. assert ((exists h0 k0, height (a :: l) x h0 /\ height (b :: m) x k0 /\ between_heights h0 k0 y) <-> between_heights h k y) as ->.
      { split; [|intros B; exists h, k; auto]. intros (h0 & k0 & A & B & C). now rewrite (monotone_unique _ _ h h0 H Hh A), (monotone_unique _ _ k k0 H' Hk B). }
      unfold between_heights. destruct (Rlt_dec y h), (Rlt_dec y k); cbn; split; intros; try discriminate; try reflexivity; lra.
    + destruct (monotone_edges (x, y) (b :: m) H') as [(k & Hk & ->)|[N' ->]]; [exfalso; symmetry in E; destruct (same_span _ _ _ _ E Hk) as [h Hh]; exact (N h Hh)|].
      cbn. split; [discriminate|]. intros (h & k & A & _). destruct (N h A).
Qed.

(** Bounds on reliability: the band is the region between the two lines. *)
Theorem C165_reliability xs yl yu x y : length yl = length xs -> length yu = length xs -> strictly_monotone xs ->
  (inside (x, y) (fill_no_autoscale false xs xs yl yu) <->
   exists h k, height (line_no_autoscale xs yl) x h /\ height (line_no_autoscale xs yu) x k /\ between_heights h k y).
Proof.
  intros HL HU H. unfold fill_no_autoscale, line_no_autoscale. cbv zeta. rewrite combine_app by lia. rewrite combine_rev by lia.
  apply region; [now rewrite !combine_fst by lia|]. unfold monotone_x. now rewrite combine_fst by lia.
Qed.
Print Assumptions C165_reliability.

(** Bounds on time: the same sideways. *)
Theorem C165_time xl xu ys x y : length xl = length ys -> length xu = length ys -> strictly_monotone ys ->
  (inside (y, x) (map swap (fill_no_autoscale false xl xu ys ys)) <->
   exists h k, height (map swap (line_no_autoscale xl ys)) y h /\ height (map swap (line_no_autoscale xu ys)) y k /\ between_heights h k x).
Proof.
  intros HL HU H. unfold fill_no_autoscale, line_no_autoscale. cbv zeta. rewrite combine_app by lia. rewrite combine_rev by lia.
  rewrite map_app, map_rev. assert (forall (a b : list R), length a = length b -> map fst (map swap (combine a b)) = b) as K.
  { intros a. induction a as [|c a IH]; intros [|d b] D; cbn in *; try lia; [reflexivity|]. f_equal. apply IH. lia. }
  apply region; [now rewrite !K by lia|]. unfold monotone_x. now rewrite K by lia.
Qed.
Print Assumptions C165_time.

(** On probability paper every vertex can be drawn, and heights that are probabilities are not changed. *)
Theorem C165_paper xl xu yl yu : (forall v, In v (fill_no_autoscale true xl xu yl yu) -> 0 < snd v < 1) /\
  ((forall y, In y yl \/ In y yu -> 0 < y < 1) -> fill_no_autoscale true xl xu yl yu = fill_no_autoscale false xl xu yl yu).
Proof.
  unfold fill_no_autoscale. cbv zeta. assert (0 < / 10 ^ 7 < 1) as T. { split; [apply Rinv_0_lt_compat; lra|]. rewrite <- Rinv_1. apply Rinv_lt_contravar; lra. }
  split.
  - intros [a b] Hv. apply in_combine_r in Hv. apply in_map_iff in Hv. destruct Hv as (y & <- & _). cbn [snd]. unfold legal_height.
    destruct (Rle_dec 1 y); [lra|]. destruct (Rle_dec y 0); lra.
  - intros H. f_equal. rewrite <- (map_id (yl ++ rev yu)) at 2. apply map_ext_in. intros y Hy. assert (0 < y < 1) as B.
    { apply H. apply in_app_or in Hy. rewrite <- in_rev in Hy. exact Hy. }
    unfold legal_height. destruct (Rle_dec 1 y); [lra|]. destruct (Rle_dec y 0); [lra|reflexivity].
Qed.
Print Assumptions C165_paper.

(** A band of two bounds on the reliability, and a point in it. *)
Example C165_case : strictly_monotone [1; 2] /\ inside (3 / 2, 1 / 2) (fill_no_autoscale false [1; 2] [1; 2] [2 / 10; 4 / 10] [5 / 10; 7 / 10]).
Proof.
  assert (strictly_monotone [1; 2]) as M. { left. intros i j [A B]. cbn in B. assert (i = 0%nat) as -> by lia. assert (j = 1%nat) as -> by lia. cbn. lra. }
  split; [exact M|]. apply C165_reliability; [reflexivity|reflexivity|exact M|]. exists (3 / 10), (6 / 10). split; [|split].
  - exists [], (1, 2 / 10), (2, 4 / 10), []. split; [reflexivity|]. split; [left; cbn; lra|]. unfold chord. cbn. field.
  - exists [], (1, 5 / 10), (2, 7 / 10), []. split; [reflexivity|]. split; [left; cbn; lra|]. unfold chord. cbn. field.
  - left. lra.
Qed.
