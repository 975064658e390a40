(** Proofs about stress_strength in general, make_right_censored_data, similar_distributions, histogram and make_ALT_data. *)
From Coquelicot Require Import Coquelicot.
From Coq Require Import String.
From Coq Require Import List Arith Reals Lra Lia Bool NArith ZArith Permutation Sorted.
From Verif Require Import Base RealFacts Gauss GaussConv Ext RList ConvertModel RepairModel RepairProofs TestingModel TestingProofs DistModel DistSpec DistProofs DistProofs2 DistProofs3 DistProofs4 CombModel CombProofs CombProofs2 SelModel SelProofs RegProofs CIModel CIProofs PlotProofs OtherModel OtherSpec OtherProofs OtherProofs2.
Import ListNotations.
Open Scope R_scope.

(** ** stress_strength *)
Lemma ss_lo_le_hi stress strength : valid stress -> valid strength -> ss_lo stress strength < ss_hi stress strength.
Proof.
  intros V1 V2. unfold ss_lo, ss_hi. assert (0 < / 10 ^ 8 < 1 - / 10 ^ 8) as H. { assert (/ 10 ^ 8 <= / 10 ^ 1) by (apply Rinv_le_contravar; lra). assert (0 < / 10 ^ 8) by (apply Rinv_0_lt_compat; lra). lra. }
  pose proof (ppf_lt stress _ _ V1 H ltac:(lra)) as P. eapply Rle_lt_trans; [apply Rmin_l|]. eapply Rlt_le_trans; [exact P|apply Rmax_r].
Qed.
Lemma ss_accepts stress strength d : valid stress -> valid strength ->
  array_ok d (ss_grid stress strength) = true <-> accepts d (ss_lo stress strength) /\ accepts d (ss_hi stress strength).
Proof.
  intros V1 V2. rewrite array_ok_iff by apply ss_grid_ne. pose proof (ss_lo_le_hi _ _ V1 V2). split.
  - intros H'. destruct (ss_grid_ends stress strength). auto.
  - intros [H1 H2] x Hx. apply (accepts_between d _ _ x H1 H2). apply ss_grid_bounds; [lra|exact Hx].
Qed.
Lemma at_end_nonneg b c v : 0 <= c -> at_end b c = Fin v -> 0 <= v.
Proof. unfold at_end. intros Hc. destruct (Rlt_dec b 1); [discriminate|]. destruct (Req_EM_T b 1); intros H; injection H as <-; lra. Qed.
Lemma pdf_nonneg d x v : valid d -> pdf d x = Fin v -> 0 <= v.
Proof.
  intros Vd E. pose proof (all_facts d Vd) as F.
  destruct (Rbar_lt_dec (supp_lo d) x) as [L|L].
  - destruct (Rbar_lt_dec x (supp_hi d)) as [H|H].
    + destruct (F_der d F x (conj L H)) as (w & E2 & Hw & _). rewrite E in E2. injection E2 as ->. lra.
    + destruct d; simpl in H; try contradiction. destruct (Rlt_dec 1 x) as [G|G].
      * rewrite (F_out _ F x) in E by (right; exact G). injection E as <-. lra.
      * simpl in L. assert (x = 1) as -> by lra. simpl in E. destruct (Rlt_dec 1 0); [lra|]. destruct (Rlt_dec 1 1); [lra|]. destruct (Req_EM_T 1 0); [lra|]. destruct (Req_EM_T 1 1); [|lra].
        revert E. apply at_end_nonneg. simpl in Vd. apply Rdiv_le_0_compat; [lra|apply beta_fun_pos; lra].
  - destruct (Rbar_lt_dec x (supp_lo d)) as [G|G].
    + rewrite (F_out _ F x) in E by (left; exact G). injection E as <-. lra.
    + assert (supp_lo d = Finite x) as S. { destruct d; simpl in *; try contradiction; f_equal; lra. } clear L G.
      destruct d; simpl in S; try discriminate; injection S as S; first [subst gamma|subst x]; simpl in E, Vd.
      * replace ((x - x) / alpha) with 0 in E by (field; lra). destruct (Rlt_dec 0 0); [lra|]. destruct (Req_EM_T 0 0); [|lra]. revert E. apply at_end_nonneg. apply Rdiv_le_0_compat; lra.
      * replace ((x - x) / exp mu) with 0 in E by (pose proof (exp_pos mu); field; lra). destruct (Rle_dec 0 0); [|lra]. injection E as <-. lra.
      * replace ((x - x) / (1 / Lambda)) with 0 in E by (field; lra). destruct (Rlt_dec 0 0); [lra|]. injection E as <-. apply Rdiv_le_0_compat; [left; apply exp_pos|]. apply Rdiv_lt_0_compat; lra.
      * replace ((x - x) / alpha) with 0 in E by (field; lra). destruct (Rlt_dec 0 0); [lra|]. destruct (Req_EM_T 0 0); [|lra]. revert E. apply at_end_nonneg. apply Rdiv_le_0_compat; [|lra]. apply Rdiv_le_0_compat; [lra|apply gamma_fun_pos; lra].
      * destruct (Rlt_dec 0 0); [lra|]. destruct (Rlt_dec 1 0); [lra|]. destruct (Req_EM_T 0 0); [|lra]. revert E. apply at_end_nonneg. apply Rdiv_le_0_compat; [lra|apply beta_fun_pos; lra].
      * replace ((x - x) / alpha) with 0 in E by (field; lra). destruct (Rlt_dec 0 0); [lra|]. destruct (Req_EM_T 0 0); [|lra]. revert E. apply at_end_nonneg. apply Rdiv_le_0_compat; lra.
Qed.
Lemma eadd_fin u v w : eadd u v = Fin w -> exists x y, u = Fin x /\ v = Fin y /\ w = x + y.
Proof. destruct u, v; simpl; intros H; try discriminate. injection H as <-. eauto. Qed.
Lemma emul_fin u s w : emul u (Fin s) = Fin w -> exists x, u = Fin x /\ w = x * s.
Proof. destruct u; simpl; intros H; try discriminate; [injection H as <-; eauto|]. destruct (Req_EM_T s 0); discriminate. Qed.
Lemma trapezoid_nonneg y : forall x v, Forall (fun u => forall w, u = Fin w -> 0 <= w) y -> StronglySorted Rle x -> trapezoid y x = Fin v -> 0 <= v.
Proof.
  induction y as [|y0 y IH]; intros x v Hy Hx E; [simpl in E; injection E as <-; lra|]. destruct y as [|y1 y]; [simpl in E; injection E as <-; lra|].
  destruct x as [|x0 x]; [simpl in E; injection E as <-; lra|]. destruct x as [|x1 x]; [simpl in E; injection E as <-; lra|].
  change (eadd (emul (eadd y0 y1) (Fin ((x1 - x0) / 2))) (trapezoid (y1 :: y) (x1 :: x)) = Fin v) in E.
  apply eadd_fin in E as (p & q & E1 & E2 & ->). apply emul_fin in E1 as (r & E1 & ->). apply eadd_fin in E1 as (w0 & w1 & -> & -> & ->).
  inversion_clear Hy as [|? ? H0 H1]. inversion_clear Hx as [|? ? S F]. specialize (IH _ _ H1 S E2). specialize (H0 _ eq_refl). inversion_clear H1. specialize (H _ eq_refl). inversion_clear F. nra.
Qed.
Lemma linspace_sorted a b n : a <= b -> StronglySorted Rle (linspace a b n).
Proof.
  intros H. unfold linspace. set (h := (b - a) / INR (n - 1)). assert (0 <= h) as Hh.
  { unfold h. destruct (Nat.eq_dec (n - 1) 0) as [->|Hn]; [simpl; unfold Rdiv; rewrite Rinv_0; lra|]. apply Rdiv_le_0_compat; [lra|]. apply lt_0_INR. lia. }
  clearbody h. generalize 0%nat as i. clear H b. induction n as [|n IH]; intros i; cbn [seq map]; constructor; [apply IH|].
  apply Forall_forall. intros x Hx. apply in_map_iff in Hx as (j & <- & Hj). apply in_seq in Hj. assert (INR i <= INR j) by (apply le_INR; lia). nra.
Qed.
Lemma stress_strength_nonneg stress strength v : valid stress -> valid strength -> stress_strength stress strength = Ok (Fin v) -> 0 <= v.
Proof.
  intros V1 V2. rewrite stress_strength_form. destruct (_ && _); [|discriminate]. intros H. assert (forall (x y : ext), Ok x = Ok y -> x = y) as Inj by (intros ? ? Q; now injection Q). apply Inj in H. revert H. apply trapezoid_nonneg.
  - apply Forall_forall. intros u Hu w E. apply in_map_iff in Hu as (x & <- & _). apply emul_fin in E as (p & E & ->). pose proof (pdf_nonneg _ _ _ V2 E). pose proof (sf_range stress x V1). nra.
  - unfold ss_grid. apply linspace_sorted. left. now apply ss_lo_le_hi.
Qed.
(** Two normal distributions. *)
Lemma ss_normal_value m1 s1 m2 s2 : 0 < s1 -> 0 < s2 -> exists v,
  stress_strength (Normal m1 s1) (Normal m2 s2) = Ok (Fin v) /\
  Rabs (v - ss_value m1 s1 m2 s2) <= 2 / 10 ^ 8 + ss_curvature s1 s2 * (Rabs (m1 - m2) + 12 * Rmax s1 s2) ^ 3 / (12 * 999999 ^ 2).
Proof.
  intros S1 S2. rewrite stress_strength_form.
  assert (forall m s, array_ok (Normal m s) (ss_grid (Normal m1 s1) (Normal m2 s2)) = true) as A. { intros m s. apply (ss_accepts (Normal m1 s1) (Normal m2 s2) (Normal m s) S1 S2). split; exact I. }
  rewrite !A. cbn [andb].
  set (lo := ss_lo (Normal m1 s1) (Normal m2 s2)). set (hi := ss_hi (Normal m1 s1) (Normal m2 s2)).
  assert (lo < hi) as Hlt by (apply ss_lo_le_hi; assumption).
  destruct ss_points_S as (n & En & Hn).
  assert (0 < (hi - lo) / INR n) as Hh by (apply Rdiv_lt_0_compat; lra).
  destruct (trapezoid_cells (ssf m1 s1 m2 s2) (ssf1 m1 s1 m2 s2) (ssf2 m1 s1 m2 s2) (ss_curvature s1 s2) (ssf_der m1 s1 m2 s2 S1 S2) (ssf1_der m1 s1 m2 s2 S1 S2) (ssf2_bound m1 s1 m2 s2 S1 S2) lo ((hi - lo) / INR n) n 0 ltac:(lra)) as (v & Ev & Bv).
  exists v. split.
  - f_equal. rewrite <- Ev. unfold ss_grid, linspace, eq_grid. fold lo hi. rewrite En. replace (S n - 1)%nat with n by lia. f_equal.
  - replace (lo + INR 0 * ((hi - lo) / INR n)) with lo in Bv by (simpl INR; ring). replace (lo + INR (0 + n) * ((hi - lo) / INR n)) with hi in Bv by (rewrite Nat.add_0_l; field; lra).
    pose proof ppf_low as [P1 P2]. pose proof ppf_high as [P3 P4].
    assert (lo <= m2 + s2 * norm_ppf (/ 10 ^ 8)) as L2. { unfold lo, ss_lo. eapply Rle_trans; [apply Rmin_r|]. cbn [ppf]. lra. }
    assert (m2 + s2 * norm_ppf (1 - / 10 ^ 8) <= hi) as H2. { unfold hi, ss_hi. eapply Rle_trans; [|apply Rmax_l]. cbn [ppf]. lra. }
    assert (0 < / 10 ^ 8) as Q0 by (apply Rinv_0_lt_compat; lra). assert (/ 10 ^ 8 < 1) as Q1 by (apply Rlt_le_trans with (/ 1); [apply Rinv_lt_contravar; lra|lra]).
    destruct (tails m1 s1 m2 s2 S1 S2 lo hi (/ 10 ^ 8)) as [T1 T2]; [lra| | |].
    + apply Rle_trans with (Phi (norm_ppf (/ 10 ^ 8))); [|rewrite Phi_norm_ppf; lra]. apply Phi_le_iff. apply (Rmult_le_reg_r s2); [lra|]. replace ((lo - m2) / s2 * s2) with (lo - m2) by (field; lra). lra.
    + apply Rle_trans with (Phi (norm_ppf (1 - / 10 ^ 8))); [rewrite Phi_norm_ppf; lra|]. apply Phi_le_iff. apply (Rmult_le_reg_r s2); [lra|]. replace ((hi - m2) / s2 * s2) with (hi - m2) by (field; lra). lra.
    + assert (hi - lo <= Rabs (m1 - m2) + 12 * Rmax s1 s2) as W.
      { pose proof (Rmax_l s1 s2). pose proof (Rmax_r s1 s2). set (sm := Rmax s1 s2) in *. clearbody sm. unfold lo, hi, ss_lo, ss_hi. cbn [ppf].
        set (z := norm_ppf (/ 10 ^ 8)) in *. set (z' := norm_ppf (1 - / 10 ^ 8)) in *. clearbody z z'.
        assert (forall s, 0 < s -> s <= sm -> z' * s <= 6 * sm /\ - (z * s) <= 6 * sm) as B by (intros; nra).
        destruct (B s1 S1 H), (B s2 S2 H0). unfold Rmin, Rmax, Rabs. destruct (Rcase_abs (m1 - m2)), (Rle_dec _ _), (Rle_dec _ _); lra. }
      assert (0 <= ss_curvature s1 s2) as C0. { eapply Rle_trans; [|apply (ssf2_bound m1 s1 m2 s2 S1 S2 0)]. apply Rabs_pos. }
      assert (INR n * (ss_curvature s1 s2 * ((hi - lo) / INR n) ^ 3 / 12) <= ss_curvature s1 s2 * (Rabs (m1 - m2) + 12 * Rmax s1 s2) ^ 3 / (12 * 999999 ^ 2)) as K.
      { rewrite Hn. replace (999999 * (ss_curvature s1 s2 * ((hi - lo) / 999999) ^ 3 / 12)) with (ss_curvature s1 s2 * (hi - lo) ^ 3 / (12 * 999999 ^ 2)) by field.
        unfold Rdiv. apply Rmult_le_compat_r; [left; apply Rinv_0_lt_compat; lra|]. apply Rmult_le_compat_l; [exact C0|]. apply pow_incr. lra. }
      set (J := RInt (ssf m1 s1 m2 s2) lo hi) in *. clearbody J. change R in J.
      replace (v - ss_value m1 s1 m2 s2) with (v - J + (J - ss_value m1 s1 m2 s2)) by ring. eapply Rle_trans; [apply Rabs_triang|].
      assert (Rabs (J - ss_value m1 s1 m2 s2) <= 2 / 10 ^ 8) by (apply Rabs_le; lra). lra.
Qed.

(** ** make_right_censored_data *)
Lemma filter_split {A} (f g : A -> bool) l : (forall x, g x = negb (f x)) -> Permutation l (filter f l ++ filter g l).
Proof.
  intros H. induction l as [|x l IH]; [constructor|]. cbn [filter]. rewrite H. destruct (f x); cbn [negb app].
  - now constructor.
  - rewrite <- Permutation_middle. now constructor.
Qed.
Lemma zip_censored o : forall u, length u = length o -> unit_interval u -> Forall2 censored_before o (zip Rmult o u).
Proof.
  induction o as [|x o IH]; intros [|y u] L H; try discriminate; cbn [zip]; constructor.
  - inversion_clear H. exists y. auto.
  - inversion_clear H. apply IH; [now injection L|assumption].
Qed.
Lemma zip_length {A B C} (f : A -> B -> C) l : forall m, length m = length l -> length (zip f l m) = length l.
Proof. induction l as [|x l IH]; intros [|y m] L; try discriminate; cbn [zip length]; [reflexivity|]. f_equal. apply IH. now injection L. Qed.
Lemma floor_count n f : 0 <= f < 1 -> let k := Z.to_nat (rfloor (INR n * f)) in (k <= n)%nat /\ INR k <= INR n * f < INR k + 1.
Proof.
  intros Hf k. assert (0 <= INR n * f) as P by (pose proof (pos_INR n); nra). assert (0 <= rfloor (INR n * f))%Z as Z0 by (apply rfloor_spec; simpl; lra).
  assert (INR k = IZR (rfloor (INR n * f))) as E by (unfold k; rewrite INR_IZR_INZ, Z2Nat.id by exact Z0; reflexivity).
  assert (IZR (rfloor (INR n * f)) <= INR n * f) as L by (apply rfloor_spec; lia).
  assert (INR n * f < IZR (rfloor (INR n * f)) + 1) as U.
  { apply Rnot_le_lt. intros C. rewrite <- plus_IZR in C. apply rfloor_spec in C. lia. }
  rewrite E. split; [|lra]. apply INR_le. rewrite E. pose proof (pos_INR n). nra.
Qed.
Lemma fraction_result shuffle rand data fraction failures rc :
  (forall l, Permutation l (shuffle l)) -> (forall k, length (rand k) = k /\ unit_interval (rand k)) -> 0 <= fraction < 1 ->
  let k := Z.to_nat (rfloor (INR (length (contents data)) * fraction)) in
  skipn k (shuffle (contents data)) = failures -> zip Rmult (firstn k (shuffle (contents data))) (rand k) = rc ->
  exists o, Permutation (contents data) (failures ++ o) /\ Forall2 censored_before o rc /\ INR (length rc) <= INR (length (contents data)) * fraction < INR (length rc) + 1.
Proof.
  intros Hs Hr Hf k E1 E2. destruct (floor_count (length (contents data)) fraction Hf) as [K1 K2]. fold k in K1, K2. destruct (Hr k) as [R1 R2].
  exists (firstn k (shuffle (contents data))).
  assert (length (firstn k (shuffle (contents data))) = k) as L by (rewrite firstn_length, <- (Permutation_length (Hs (contents data))); lia).
  split; [|split].
  - subst failures. rewrite Permutation_app_comm, firstn_skipn. apply Hs.
  - subst rc. apply zip_censored; [now rewrite L|exact R2].
  - subst rc. rewrite zip_length by (now rewrite L). rewrite L. exact K2.
Qed.

(** ** similar_distributions *)
Lemma ranked_listed fitted inc d : (d = D_Exponential_2P -> inc = false \/ par_1 (fitted D_Exponential_2P) = par_1 (fitted D_Exponential_1P)) ->
  ranked_object fitted inc d = listed fitted inc d.
Proof.
  intros H. unfold ranked_object, listed. destruct d, inc; cbn [location_shifted negb orb andb own_object]; try reflexivity;
  try (destruct (Req_EM_T _ 0); reflexivity).
  destruct (H eq_refl) as [?|E]; [discriminate|]. rewrite E. destruct (Req_EM_T _ 0); reflexivity.
Qed.
Lemma ranked_name fitted inc d x : In x (ranked_object fitted inc d) -> name2 x = d.
Proof.
  unfold ranked_object. destruct d, inc; cbn [In]; try tauto; intros H; try (destruct (Req_EM_T _ 0) as [E|E] in H; cbn [In] in H; [tauto|]); destruct H as [<-|[]]; cbn [name2]; try reflexivity;
  destruct (Req_EM_T _ 0); try reflexivity; try lra; contradiction.
Qed.
Lemma remove_first_notin d l : NoDup l -> ~ In d (remove_first d l).
Proof.
  induction l as [|x l IH]; intros N; [intros []|]. inversion_clear N as [|? ? H1 H2]. cbn [remove_first]. destruct (dname_eqb x d) eqn:E.
  - apply dname_eqb_eq in E. now subst.
  - intros [->|H]; [|now apply IH]. assert (dname_eqb d d = true) by now apply dname_eqb_eq. congruence.
Qed.
Lemma remove_first_filter d l : NoDup l -> remove_first d l = filter (fun x => negb (dname_eqb x d)) l.
Proof.
  induction l as [|x l IH]; intros N; [reflexivity|]. inversion_clear N as [|? ? H1 H2]. cbn [remove_first filter]. destruct (dname_eqb x d) eqn:E; cbn [negb].
  - apply dname_eqb_eq in E. subst x. symmetry. clear IH H2. induction l as [|y l IH]; [reflexivity|]. cbn [filter]. destruct (dname_eqb y d) eqn:F.
    + apply dname_eqb_eq in F. subst. exfalso. apply H1. now left.
    + cbn [negb]. f_equal. apply IH. intros C. apply H1. now right.
  - f_equal. now apply IH.
Qed.
Lemma similar_inv d inc k ranked fitted objs best : similar_distributions d inc k ranked fitted = Ok (objs, best) ->
  objs = flat_map (ranked_object (fitted (similar_filtered d)) inc) (remove_first (name2 d) (ranked (similar_filtered d))) /\ hd_error objs = Some best /\ (2 <= k)%Z /\ (175 <= length (similar_filtered d))%nat.
Proof.
  unfold similar_distributions. destruct (Z.ltb_spec k 2); [discriminate|]. destruct (Nat.ltb_spec (length (similar_filtered d)) 175); [discriminate|].
  destruct (flat_map _ _) as [|x r] eqn:E; [discriminate|]. intros H1. injection H1 as <- <-. repeat split; auto.
Qed.

(** ** histogram *)
Lemma histogram_inv data edges w white : histogram_white data edges w = Ok white ->
  rmin data <= w /\ exists j, argmin (map (fun e => Rabs (e - w)) edges) = Ok j /\ white = seq j (length edges - 1 - j).
Proof.
  unfold histogram_white. destruct (Rltb' w (rmin data)) eqn:E; [discriminate|]. intros H. apply bind_ok in H as (j & Ej & H). injection H as <-.
  split; [|eauto]. unfold Rltb' in E. destruct (Rlt_dec w (rmin data)); [discriminate|lra].
Qed.
Lemma argmin_from_first l : forall pre best besti, nth_error pre besti = Some best -> (forall i y, nth_error pre i = Some y -> best <= y /\ ((i < besti)%nat -> best < y)) ->
  let j := argmin_from best besti (length pre) l in forall i y, nth_error (pre ++ l) i = Some y -> nth j (pre ++ l) 0 <= y /\ ((i < j)%nat -> nth j (pre ++ l) 0 < y).
Proof.
  induction l as [|x l IH]; intros pre best besti Hn Hm; cbn [argmin_from].
  - rewrite app_nil_r. intros i y Hi. rewrite (nth_error_nth pre besti 0 Hn). now apply Hm.
  - assert (forall i y, nth_error (pre ++ [x]) i = Some y -> nth_error pre i = Some y \/ (i = length pre /\ y = x)) as Split.
    { intros i y Hi. destruct (Nat.lt_ge_cases i (length pre)); [left; now rewrite nth_error_app1 in Hi|]. rewrite nth_error_app2 in Hi by assumption.
      right. destruct (i - length pre)%nat as [|m] eqn:E; simpl in Hi; [injection Hi as <-; split; [lia|reflexivity]|destruct m; discriminate]. }
    assert (besti < length pre)%nat as Lb by (apply nth_error_Some; congruence).
    destruct (Rlt_dec x best) as [Hx|Hx].
    + specialize (IH (pre ++ [x]) x (length pre)). rewrite app_length in IH. cbn [length] in IH. rewrite Nat.add_1_r, <- app_assoc in IH. cbn [app] in IH. apply IH.
      * rewrite nth_error_app2 by lia. now rewrite Nat.sub_diag.
      * intros i y Hi. destruct (Split i y Hi) as [Hi'|[-> ->]]; [destruct (Hm i y Hi'); lra|]. split; [lra|lia].
    + specialize (IH (pre ++ [x]) best besti). rewrite app_length in IH. cbn [length] in IH. rewrite Nat.add_1_r, <- app_assoc in IH. cbn [app] in IH. apply IH.
      * rewrite nth_error_app1 by assumption. exact Hn.
      * intros i y Hi. destruct (Split i y Hi) as [Hi'|[-> ->]]; [now apply Hm|]. split; [lra|lia].
Qed.
Lemma argmin_first l j : argmin l = Ok j -> (j < length l)%nat /\ forall i, (i < length l)%nat -> nth j l 0 <= nth i l 0 /\ ((i < j)%nat -> nth j l 0 < nth i l 0).
Proof.
  intros H. split; [now apply argmin_spec in H|]. destruct l as [|x l]; [discriminate|]. simpl in H. injection H as <-. intros i Hi.
  apply (argmin_from_first l [x] x 0); [reflexivity| |now apply nth_error_nth'].
  intros k y Hk. destruct k as [|k]; [injection Hk as <-; split; [lra|lia]|destruct k; discriminate].
Qed.

(** ** make_ALT_data *)
Lemma life_model_spec m p life s1 s2 : 0 < s1 -> life_model m p = Ok life -> life_stress m p s1 s2 (life s1 s2).
Proof.
  intros Hs. unfold life_model, life_stress.
  destruct m; [destruct (q_a p) as [a|], (q_b p) as [b|]|destruct (q_a p) as [a|], (q_c p) as [c|]|destruct (q_a p) as [a|], (q_n p) as [n|]
    |destruct (q_a p) as [a|], (q_b p) as [b|], (q_c p) as [c|]|destruct (q_a p) as [a|], (q_c p) as [c|], (q_n p) as [n|]|destruct (q_c p) as [c|], (q_n p) as [n|], (q_m p) as [m|]]; try discriminate;
  try (destruct (Rleb _ 0); [discriminate|]); intros H; injection H as <-.
  - exists a, b; auto.
  - exists a, c; repeat split; auto. unfold Rdiv at 1. now rewrite Rmult_1_l.
  - exists a, n; auto.
  - exists a, b, c; auto.
  - exists a, c, n; repeat split; auto. ring.
  - exists c, m, n; auto.
Qed.
Lemma make_dist_spec name beta sigma L d : make_dist name beta sigma L = Ok d -> with_life name beta sigma L d.
Proof.
  unfold make_dist. destruct (String.eqb_spec name "Weibull"); [destruct beta; [|discriminate]; intros H; injection H as <-; simpl; auto|].
  destruct (String.eqb_spec name "Lognormal"); [destruct sigma; [|discriminate]; intros H; injection H as <-; simpl; repeat split; auto; intros; now apply exp_ln|].
  destruct (String.eqb_spec name "Normal"); [destruct sigma; [|discriminate]; intros H; injection H as <-; simpl; auto|].
  destruct (String.eqb_spec name "Exponential"); [|discriminate]. intros H; injection H as <-. simpl. repeat split; auto. intros HL. field. exact HL.
Qed.
Section Alt.
Variables (dual : bool) (fraction : R) (samples : nat -> dist -> list R) (shuffle : nat -> list R -> list R) (rand : nat -> nat -> list R).
Variables (mk : R -> result dist) (life : R -> R -> R).
Hypothesis Hf : 0 <= fraction < 1.
Hypothesis Hs : forall i l, Permutation l (shuffle i l).
Hypothesis Hr : forall i k, length (rand i k) = k /\ unit_interval (rand i k).
Definition level_at (i : nat) (s : R * R) (l : level) : Prop :=
  exists d, mk (life (fst s) (snd s)) = Ok d /\ level_of fraction (samples i d) s l /\ Forall (fun x => 0 < x) (samples i d).
Lemma rmin_pos l : Rleb (rmin l) 0 = false -> Forall (fun x => 0 < x) l.
Proof. intros H. apply Forall_forall. intros x Hx. unfold Rleb in H. destruct (Rle_dec (rmin l) 0); [discriminate|]. pose proof (rmin_le l x Hx). lra. Qed.
Lemma alt_step_level i s1 s2 ls acc' : alt_step dual fraction samples shuffle rand mk life i s1 s2 (level_data dual ls) = Ok acc' ->
  exists l, level_at i (s1, s2) l /\ acc' = level_data dual (ls ++ [l]).
Proof.
  unfold alt_step. intros H. apply bind_ok in H as (d & Ed & H). destruct (Rleb (rmin (samples i d)) 0) eqn:Em; [discriminate|]. apply rmin_pos in Em.
  destruct (Req_EM_T fraction 0) as [->|Hn].
  - injection H as <-. exists {| lv_s1 := s1; lv_s2 := s2; lv_failures := samples i d; lv_censored := [] |}. split.
    + exists d. split; [exact Ed|]. split; [|exact Em]. split; [reflexivity|]. split; [reflexivity|]. cbn [lv_failures lv_censored length]. exists []. rewrite app_nil_r. split; [reflexivity|]. split; [constructor|]. rewrite e. simpl. lra.
    + unfold level_data. cbn [ad_failures ad_fs1 ad_fs2 ad_censored ad_cs1 ad_cs2]. rewrite !flat_map_app. cbn [flat_map lv_failures lv_censored lv_s1 lv_s2]. unfold repeat_for. cbn [map]. rewrite !app_nil_r. destruct dual; reflexivity.
  - apply bind_ok in H as ([fl cn] & Ec & H). injection H as <-. cbn [fst snd] in *. unfold make_right_censored_data in Ec. cbn [contents] in Ec.
    destruct (Rltb' fraction 0 || Rleb 1 fraction) eqn:Eb; [discriminate|]. cbn [fst] in Ec. injection Ec as E1 E2.
    destruct (fraction_result (shuffle i) (rand i) (NdArray (samples i d)) fraction fl cn (Hs i) (Hr i) Hf E1 E2) as (o & P1 & P2 & P3).
    exists {| lv_s1 := s1; lv_s2 := s2; lv_failures := fl; lv_censored := cn |}. split.
    + exists d. split; [exact Ed|]. split; [|exact Em]. split; [reflexivity|]. split; [reflexivity|]. cbn [lv_failures lv_censored contents] in *. exists o. auto.
    + unfold level_data. cbn [ad_failures ad_fs1 ad_fs2 ad_censored ad_cs1 ad_cs2]. rewrite !flat_map_app. cbn [flat_map lv_failures lv_censored lv_s1 lv_s2]. unfold repeat_for. rewrite !app_nil_r. destruct dual; reflexivity.
Qed.
Lemma alt_loop_levels ss : forall i ls acc', alt_loop dual fraction samples shuffle rand mk life i ss (level_data dual ls) = Ok acc' ->
  exists ls', acc' = level_data dual (ls ++ ls') /\ length ls' = length ss /\ forall k s, nth_error ss k = Some s -> exists l, nth_error ls' k = Some l /\ level_at (i + k) s l.
Proof.
  induction ss as [|[s1 s2] ss IH]; intros i ls acc' H; cbn [alt_loop] in H.
  - injection H as <-. exists []. rewrite app_nil_r. repeat split. intros [|k] s Hk; discriminate.
  - apply bind_ok in H as (acc1 & H1 & H). apply alt_step_level in H1 as (l & Hl & ->). apply IH in H as (ls' & -> & L & A). exists (l :: ls'). rewrite <- app_assoc. cbn [app length]. split; [reflexivity|]. split; [now f_equal|].
    intros [|k] s Hk; cbn [nth_error] in *.
    + injection Hk as <-. exists l. rewrite Nat.add_0_r. auto.
    + destruct (A k s Hk) as (l' & E' & H'). exists l'. split; [exact E'|]. now replace (i + S k)%nat with (S i + k)%nat by lia.
Qed.
End Alt.
Lemma firstn_combine {A B} (l : list A) : forall (m : list B) n, firstn n (combine l m) = combine (firstn n l) (firstn n m).
Proof. induction l as [|x l IH]; intros [|y m] [|n]; cbn [combine firstn]; try reflexivity. f_equal. apply IH. Qed.
Lemma nth_error_combine {A B} (l : list A) : forall (m : list B) i p, nth_error (combine l m) i = Some p -> nth_error l i = Some (fst p) /\ nth_error m i = Some (snd p).
Proof. induction l as [|x l IH]; intros [|y m] [|i] p H; try discriminate; cbn [combine nth_error] in *; [injection H as <-; auto|auto]. Qed.
Lemma nth_error_combine_ex {A B} (l : list A) : forall (m : list B) i x, (length l <= length m)%nat -> nth_error l i = Some x -> exists y, nth_error (combine l m) i = Some (x, y).
Proof. induction l as [|x0 l IH]; intros [|y m] [|i] x L H; try discriminate; cbn [combine nth_error length] in *; try lia; [injection H as <-; eauto|]. apply IH; [lia|exact H]. Qed.
Lemma make_ALT_inv samples shuffle rand name m stress_1 stress_2 p beta sigma use fraction data ud :
  make_ALT_data samples shuffle rand name m stress_1 stress_2 p beta sigma use fraction = Ok (data, ud) ->
  0 <= fraction < 1 /\ exists s2 life,
  (if dual_stress m then exists l, stress_2 = Some l /\ length l = length stress_1 /\ s2 = l ++ match use with Some u => [snd u] | None => [] end
   else s2 = stress_1 ++ match use with Some u => [fst u] | None => [] end) /\
  life_model m p = Ok life /\
  alt_loop (dual_stress m) fraction samples shuffle rand (make_dist name beta sigma) life 0 (combine stress_1 (firstn (length stress_1) s2)) alt_empty = Ok data /\
  match use with None => ud = None | Some u => exists d, ud = Some d /\ make_dist name beta sigma (life (fst u) (last s2 0)) = Ok d end.
Proof.
  unfold make_ALT_data. intros H. apply bind_ok in H as (s2 & E2 & H). destruct (Rltb' fraction 0 || Rleb 1 fraction) eqn:Ef; [discriminate|].
  apply orb_false_iff in Ef as [F1 F2]. split. { unfold Rltb', Rleb in F1, F2. destruct (Rlt_dec fraction 0); [discriminate|]. destruct (Rle_dec 1 fraction); [discriminate|lra]. }
  apply bind_ok in H as (life & El & H). apply bind_ok in H as (dat & Ed & H). exists s2, life.
  rewrite firstn_combine in Ed. rewrite firstn_app, Nat.sub_diag, firstn_O, app_nil_r, firstn_all in Ed.
  assert (data = dat /\ match use with None => ud = None | Some u => exists d, ud = Some d /\ make_dist name beta sigma (life (fst u) (last s2 0)) = Ok d end) as [-> U].
  { destruct use as [u|]; [|injection H as <- <-; auto]. apply bind_ok in H as (d & E & H). injection H as <- <-. split; [reflexivity|]. exists d. split; [reflexivity|]. now rewrite last_last in E. }
  repeat split; auto. destruct (dual_stress m).
  - destruct stress_2 as [l|]; [|discriminate]. destruct (Nat.eqb_spec (length (l ++ match use with Some u => [snd u] | None => [] end)) (length (stress_1 ++ match use with Some u => [fst u] | None => [] end))) as [L|L]; [|discriminate].
    injection E2 as <-. exists l. split; [reflexivity|]. split; [|reflexivity]. rewrite !app_length in L. destruct use; simpl in L; lia.
  - now injection E2 as <-.
Qed.
