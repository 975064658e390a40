(** Proofs about the plots of optimal_replacement_time. *)
From Coquelicot Require Import Coquelicot.
From Coq Require Import List Arith Reals Bool Lra Lia ZArith.
From Verif Require Import Base RealFacts Gauss DistModel DistSpec DistProofs DistProofs2 NonparModel NonparProofs RList RandModel RandProofs RoundModel RoundProofs RepairModel RepairSpec RepairProofs RepairProofs3 MRLProofs RPlotModel RPlotSpec.
Import ListNotations.
Open Scope R_scope.

Lemma ok_inj {A} (x y : A) : Ok x = Ok y -> x = y.
Proof. congruence. Qed.

(** * The Weibull reliability *)
Definition W (alpha beta : R) : dist := Weibull alpha beta 0.
Lemma W_valid alpha beta : 0 < alpha -> 0 < beta -> valid (W alpha beta).
Proof. intros; unfold W; cbn; repeat split; lra. Qed.
Lemma sf_W alpha beta x : 0 < alpha -> 0 <= x -> weibull_sf alpha beta x = sf (W alpha beta) x.
Proof.
  intros Ha Hx. unfold weibull_sf, W. cbn [sf]. unfold on_pos. rewrite Rminus_0_r.
  destruct (Req_EM_T x 0) as [->|N].
  - replace (0 / alpha) with 0 by (field; lra). destruct (Rlt_dec 0 0); [lra|reflexivity].
  - assert (0 < x / alpha) by (apply Rdiv_lt_0_compat; lra). destruct (Rlt_dec 0 (x / alpha)); [reflexivity|lra].
Qed.
Definition area (alpha beta t : R) : R := RInt (weibull_sf alpha beta) 0 t.
Lemma area_H alpha beta t : 0 < alpha -> 0 <= t -> area alpha beta t = H (W alpha beta) 0 t.
Proof.
  intros Ha Ht. unfold area, H. apply RInt_ext. intros x Hx. rewrite Rmin_left in Hx by lra. apply sf_W; lra.
Qed.
Lemma area_incr alpha beta s t : 0 < alpha -> 0 < beta -> 0 <= s -> s < t -> area alpha beta s < area alpha beta t.
Proof.
  intros Ha Hb Hs Hst. rewrite !area_H by lra. pose proof (H_diff (W alpha beta) (W_valid _ _ Ha Hb) 0 s t) as D.
  assert (0 < RInt (sf (W alpha beta)) s t); [|lra].
  apply RInt_gt_0; [exact Hst| |].
  - intros x Hx. apply sf_pos; [now apply W_valid|exact I].
  - intros x Hx. apply sf_continuous. now apply W_valid.
Qed.
Lemma area_pos alpha beta t : 0 < alpha -> 0 < beta -> 0 < t -> 0 < area alpha beta t.
Proof. intros Ha Hb Ht. pose proof (area_incr alpha beta 0 t Ha Hb ltac:(lra) Ht). unfold area in *. rewrite RInt_point in H. exact H. Qed.
Lemma wsf_range alpha beta t : 0 < alpha -> 0 < beta -> 0 <= t -> 0 <= weibull_sf alpha beta t <= 1.
Proof. intros. rewrite sf_W by lra. apply sf_range. now apply W_valid. Qed.
Lemma area_le alpha beta t : 0 < alpha -> 0 < beta -> 0 <= t -> area alpha beta t <= t.
Proof.
  intros Ha Hb Ht. rewrite area_H by lra. unfold H. replace t with (RInt (fun _ : R => 1) 0 t) at 2.
  - apply RInt_le; [exact Ht|apply sf_ex; now apply W_valid|apply ex_RInt_const|]. intros x Hx. apply sf_range. now apply W_valid.
  - rewrite RInt_const. unfold scal; cbn. unfold mult; cbn. ring.
Qed.
Lemma area_ge alpha beta t : 0 < alpha -> 0 < beta -> 0 <= t -> t * weibull_sf alpha beta t <= area alpha beta t.
Proof.
  intros Ha Hb Ht. rewrite area_H, sf_W by lra. unfold H. replace (t * sf (W alpha beta) t) with (RInt (fun _ : R => sf (W alpha beta) t) 0 t).
  - apply RInt_le; [exact Ht|apply ex_RInt_const|apply sf_ex; now apply W_valid|]. intros x Hx. apply sf_decr; [now apply W_valid|lra].
  - rewrite RInt_const. unfold scal; cbn. unfold mult; cbn. ring.
Qed.

(** The failures per unit time increase when the hazard does. *)
Lemma rate_mono alpha beta s t : 0 < alpha -> 1 <= beta -> 0 < s -> s <= t ->
  (1 - weibull_sf alpha beta s) * area alpha beta t <= (1 - weibull_sf alpha beta t) * area alpha beta s.
Proof.
  intros Ha Hb Hs Hst. pose proof (W_valid alpha beta Ha ltac:(lra)) as V.
  set (h := fun u => beta / alpha * Rpower (u / alpha) (beta - 1)).
  set (G := fun u => (1 - sf (W alpha beta) u) - h s * H (W alpha beta) 0 u).
  set (dG := fun u => if Rle_dec u 0 then 0 else (h u - h s) * sf (W alpha beta) u).
  assert (forall u, 0 < u -> is_derive G u (dG u)) as DG.
  { intros u Hu. unfold G, dG. destruct (Rle_dec u 0) as [?|_]; [lra|]. replace ((h u - h s) * sf (W alpha beta) u) with (minus (h u * sf (W alpha beta) u) (h s * sf (W alpha beta) u)) by (unfold minus, plus, opp; cbn; ring).
    apply (is_derive_minus (fun u => 1 - sf (W alpha beta) u) (fun u => h s * H (W alpha beta) 0 u)).
    - apply (is_derive_ext_loc (fun u => 1 - exp (- Rpower (u / alpha) beta))).
      + exists (mkposreal u Hu). intros y Hy. unfold ball in Hy; cbn in Hy. unfold AbsRing_ball, abs, minus, plus, opp in Hy; cbn in Hy. apply Rabs_def2 in Hy.
        rewrite <- sf_W by lra. unfold weibull_sf. destruct (Req_EM_T y 0); [lra|reflexivity].
      + rewrite <- sf_W by lra. unfold weibull_sf. destruct (Req_EM_T u 0); [lra|].
        unfold h, Rpower. assert (0 < u / alpha) by (apply Rdiv_lt_0_compat; lra). auto_derive; [repeat split; lra|].
        replace ((beta - 1) * ln (u / alpha)) with (beta * ln (u / alpha) + - ln (u / alpha)) by ring. rewrite exp_plus, (exp_Ropp (ln (u / alpha))), exp_ln by assumption.
        unfold Rdiv. set (l := exp (beta * ln (u * / alpha))). set (m := exp (- l)). field. lra.
    - apply (is_derive_scal (H (W alpha beta) 0) u (h s)). apply H_derive. exact V. }
  assert (forall u, continuous G u) as CG.
  { intros u. unfold G. apply (continuous_minus (fun u => 1 - sf (W alpha beta) u) (fun u => h s * H (W alpha beta) 0 u)).
    - apply (continuous_minus (fun _ => 1) (sf (W alpha beta))); [apply continuous_const|apply sf_continuous; exact V].
    - apply (continuous_scal_r (h s) (H (W alpha beta) 0)). apply H_cont. exact V. }
  assert (forall u v, 0 < u -> u <= v -> h u <= h v) as Hh.
  { intros u v Hu Huv. unfold h. apply Rmult_le_compat_l; [left; apply Rdiv_lt_0_compat; lra|].
    apply Rle_Rpower_l; [lra|]. split; [apply Rdiv_lt_0_compat; lra|]. apply Rmult_le_compat_r; [left; apply Rinv_0_lt_compat; lra|lra]. }
  assert (G s <= G 0) as G1.
  { destruct (MVT_gen G 0 s dG) as (c & Hc & E).
    - intros x Hx. rewrite Rmin_left in Hx by lra. apply DG. lra.
    - intros x _. apply continuity_pt_filterlim. apply CG.
    - rewrite Rmin_left, Rmax_right in Hc by lra.
      assert (dG c <= 0); [|nra]. unfold dG. destruct (Rle_dec c 0); [lra|].
      pose proof (Hh c s ltac:(lra) ltac:(lra)). pose proof (sf_range (W alpha beta) V c). nra. }
  assert (G s <= G t) as G2.
  { destruct (MVT_gen G s t dG) as (c & Hc & E).
    - intros x Hx. rewrite Rmin_left in Hx by lra. apply DG. lra.
    - intros x _. apply continuity_pt_filterlim. apply CG.
    - rewrite Rmin_left, Rmax_right in Hc by lra. assert (0 <= dG c); [|nra]. unfold dG. destruct (Rle_dec c 0); [lra|].
      pose proof (Hh s c ltac:(lra) ltac:(lra)). pose proof (sf_range (W alpha beta) V c). nra. }
  rewrite !area_H, !sf_W by lra. unfold G in G1, G2. rewrite (H_0 (W alpha beta) 0) in G1.
  rewrite <- (sf_W alpha beta 0) in G1 by lra. unfold weibull_sf in G1. destruct (Req_EM_T 0 0) as [_|]; [|lra].
  pose proof (area_pos alpha beta s Ha ltac:(lra) Hs) as Is. rewrite area_H in Is by lra.
  assert (H (W alpha beta) 0 s <= H (W alpha beta) 0 t) as It.
  { destruct Hst as [L| ->]; [|lra]. pose proof (area_incr alpha beta s t Ha ltac:(lra) ltac:(lra) L) as K. rewrite !area_H in K by lra. lra. }
  set (Fs := 1 - sf _ s) in *. set (Ft := 1 - sf _ t) in *. set (A := H _ 0 s) in *. set (B := H _ 0 t) in *. nra.
Qed.

(** * The grid and the least cost *)
Lemma grid_bounds a b n t : (2 <= n)%N -> on_grid a b n t -> (a <= b -> a <= t <= b) /\ (b <= a -> b <= t <= a).
Proof.
  intros Hn (i & Hi & ->). assert (0 <= INR i <= IZR (Z.of_N n) - 1) as HI.
  { split; [apply pos_INR|]. rewrite INR_IZR_INZ. replace 1 with (IZR 1) by reflexivity. rewrite <- minus_IZR. apply IZR_le. lia. }
  assert (1 <= IZR (Z.of_N n) - 1) as HN. { replace 1 with (IZR 1) by reflexivity. rewrite <- minus_IZR. apply IZR_le. lia. }
  set (N := IZR (Z.of_N n) - 1) in *.
  assert (0 <= INR i / N <= 1) as HF.
  { split; [apply Rmult_le_pos; [lra|left; apply Rinv_0_lt_compat; lra]|]. apply (Rmult_le_reg_r N); [lra|]. unfold Rdiv. rewrite Rmult_assoc, Rinv_l by lra. lra. }
  replace (INR i * ((b - a) / N)) with (INR i / N * (b - a)) by (field; lra). split; intros; nra.
Qed.
Lemma grid_pos alpha n t : (2 <= n)%N -> 0 < alpha -> forall m, 0 < m -> on_grid 1 (alpha * m) n t -> 0 < t.
Proof.
  intros Hn Ha m Hm H. apply grid_bounds in H as [H1 H2]; [|exact Hn]. assert (0 < alpha * m) by nra.
  destruct (Rle_dec 1 (alpha * m)); [specialize (H1 r)|specialize (H2 ltac:(lra))]; lra.
Qed.
Lemma cput_new_pos PM CM alpha beta t : 0 < PM -> PM <= CM -> 0 < alpha -> 0 < beta -> 0 < t -> 0 < cput_new PM CM alpha beta t.
Proof.
  intros HP HC Ha Hb Ht. unfold cput_new. pose proof (wsf_range alpha beta t Ha Hb ltac:(lra)). pose proof (area_pos alpha beta t Ha Hb Ht) as A. unfold area in A.
  apply Rdiv_lt_0_compat; [|exact A]. nra.
Qed.
Lemma cput_old_pos PM CM alpha beta t : 0 < PM -> PM <= CM -> 0 < t -> 0 < cput_old PM CM alpha beta t.
Proof.
  intros HP HC Ht. unfold cput_old. apply Rdiv_lt_0_compat; [|exact Ht]. assert (0 < Rpower (t / alpha) beta) by apply exp_pos. nra.
Qed.
Lemma ort_inv PM CM alpha beta q r : optimal_replacement_time PM CM alpha beta q = Ok r -> PM <= CM /\ (q = 0%nat \/ q = 1%nat).
Proof.
  unfold optimal_replacement_time. destruct (Rltb CM PM) eqn:E; [discriminate|]. apply Rltb_false in E.
  destruct q as [|[|q]]; [auto|auto|discriminate].
Qed.

(** * The time plot *)
Lemma time_plot_inv PM CM alpha beta q p : time_plot PM CM alpha beta q = Ok p ->
  optimal_replacement_time PM CM alpha beta q = Ok (p_mark p) /\ p_ylim p = (0, snd (p_mark p) * 2) /\
  p_xlim p = (0, alpha * match q with 1%nat => 4 | _ => 3 end) /\
  (forall v, In v (p_line p) <-> cost_line PM CM alpha beta q v).
Proof.
  unfold time_plot. destruct (optimal_replacement_time PM CM alpha beta q) as [best|] eqn:E; cbn [bind]; [|discriminate].
  pose proof (ort_inv _ _ _ _ _ _ E) as [_ Hq]. intros H. apply ok_inj in H. subst p. cbn [p_mark p_ylim p_xlim p_line].
  split; [reflexivity|]. split; [reflexivity|]. split; [reflexivity|]. intros [t y]. unfold cost_line. cbn [fst snd].
  destruct Hq as [-> | ->]; rewrite in_map_iff.
  - rewrite (Rmult_comm 3 alpha), <- linspace_grid by lia. split.
    + intros (u & Eu & Hu). injection Eu as -> <-. split; [exact Hu|reflexivity].
    + intros [Hu ->]. exists t. split; [reflexivity|exact Hu].
  - rewrite (Rmult_comm 4 alpha), <- linspace_grid by lia. split.
    + intros (u & Eu & Hu). injection Eu as -> <-. split; [exact Hu|reflexivity].
    + intros [Hu ->]. exists t. split; [reflexivity|exact Hu].
Qed.

Lemma c154_time PM CM alpha beta q p : proper PM alpha beta q -> time_plot PM CM alpha beta q = Ok p ->
  optimal_replacement_time PM CM alpha beta q = Ok (p_mark p) /\
  (forall v, In v (p_line p) <-> cost_line PM CM alpha beta q v) /\
  (forall v, In v (p_line p) -> snd (p_mark p) <= snd v) /\
  (q = 0%nat -> In (p_mark p) (p_line p)) /\
  (snd (p_mark p) = match q with 1%nat => (PM * Rpower (fst (p_mark p) / alpha) beta + CM) / fst (p_mark p) | _ => renewal_cost PM CM (weibull_reliability alpha beta) (fst (p_mark p)) end) /\
  0 < fst (p_mark p) /\ 0 < snd (p_mark p) <= snd (p_ylim p).
Proof.
  intros (HP & Ha & Hb) H. destruct (time_plot_inv _ _ _ _ _ _ H) as (E & Ey & Ex & L). split; [exact E|]. split; [exact L|].
  pose proof (ort_inv _ _ _ _ _ _ E) as [HC Hq]. destruct (p_mark p) as [ORT cost] eqn:Em. cbn [fst snd] in *. rewrite Ey. cbn [snd].
  destruct Hq as [-> | ->].
  - destruct (ort_new_full _ _ _ _ _ _ E) as (G & C & M).
    assert (0 < ORT) as PO. { rewrite (Rmult_comm 3) in G. apply (grid_pos alpha 10000 ORT ltac:(lia) Ha 3 ltac:(lra) G). }
    assert (0 < cost) as PC. { rewrite C. apply (cput_new_pos PM CM alpha beta ORT); assumption. }
    split. { intros [t y] Hv. apply L in Hv as [Hg Hy]. cbn [fst snd] in *. rewrite Hy. apply M. exact Hg. }
    split. { intros _. apply L. split; cbn [fst snd]; assumption. }
    split; [exact C|]. lra.
  - destruct (ort_one _ _ _ _ _ _ HP Ha Hb E) as (PO & C & M).
    assert (0 < cost) as PC. { rewrite C. apply (cput_old_pos PM CM alpha beta ORT); assumption. }
    split. { intros [t y] Hv. apply L in Hv as [Hg Hy]. cbn [fst snd] in *. rewrite Hy.
      destruct (Req_EM_T t ORT) as [->|N]; [rewrite <- C; lra|]. left. apply M; [|exact N].
      rewrite (Rmult_comm 4) in Hg. apply (grid_pos alpha 100000 t ltac:(lia) Ha 4 ltac:(lra) Hg). }
    split; [discriminate|]. split; [exact C|]. lra.
Qed.

Lemma c154_time_view_old PM CM alpha beta p : proper PM alpha beta 1 -> time_plot PM CM alpha beta 1 = Ok p ->
  (sees p (p_mark p) <-> CM <= PM * (beta - 1) * Rpower 4 beta).
Proof.
  intros Pr H. pose proof Pr as (HP & Ha & Hb). destruct (c154_time _ _ _ _ _ _ Pr H) as (E & _ & _ & _ & _ & PO & PC).
  destruct (time_plot_inv _ _ _ _ _ _ H) as (_ & Ey & Ex & _). unfold sees. rewrite Ex, Ey. rewrite Ey in PC. cbn [fst snd] in *.
  pose proof (ort_inv _ _ _ _ _ _ E) as [HC _].
  assert (fst (p_mark p) = ort_old PM CM alpha beta) as EO.
  { unfold optimal_replacement_time in E. destruct (Rltb CM PM); [discriminate|]. injection E as <-. reflexivity. }
  set (D := PM * (beta - 1)). assert (0 < D) as PD by (unfold D; nra).
  assert (ort_old PM CM alpha beta <= alpha * 4 <-> CM <= D * Rpower 4 beta) as Q.
  { unfold ort_old. fold D. assert (0 < CM / D) as Pq by (apply Rdiv_lt_0_compat; lra).
    assert (Rpower (CM / D) (1 / beta) <= 4 <-> CM / D <= Rpower 4 beta) as Q1.
    { assert (Rpower 4 beta = Rpower 4 beta) as _ by reflexivity. assert (0 < 1 / beta) as Pi by (apply Rdiv_lt_0_compat; lra).
      assert (Rpower (Rpower 4 beta) (1 / beta) = 4) as E4. { rewrite Rpower_mult. replace (beta * (1 / beta)) with 1 by (field; lra). apply Rpower_1. lra. }
      split; intros L.
      - destruct (Rle_dec (CM / D) (Rpower 4 beta)) as [|N]; [assumption|]. exfalso. apply Rnot_le_lt in N.
        assert (Rpower (Rpower 4 beta) (1 / beta) < Rpower (CM / D) (1 / beta)); [|lra].
        unfold Rpower at 1 3. apply exp_increasing. apply Rmult_lt_compat_l; [exact Pi|]. apply ln_increasing; [apply exp_pos|exact N].
      - rewrite <- E4. apply Rle_Rpower_l; [lra|]. split; [exact Pq|exact L]. }
    split; intros L.
    - assert (CM / D <= Rpower 4 beta) as L2 by (apply Q1; apply (Rmult_le_reg_l alpha); lra).
      apply (Rmult_le_compat_l D) in L2; [|lra]. replace (D * (CM / D)) with CM in L2 by (field; lra). exact L2.
    - apply Rmult_le_compat_l; [lra|]. apply Q1. apply (Rmult_le_reg_l D); [exact PD|]. replace (D * (CM / D)) with CM by (field; lra). exact L. }
  rewrite <- Q, <- EO. split; [intros [[_ V] _]; exact V|]. intros V. repeat split; lra.
Qed.
Lemma c154_time_view_new PM CM alpha beta p : proper PM alpha beta 0 -> 1 / 3 <= alpha -> time_plot PM CM alpha beta 0 = Ok p -> sees p (p_mark p).
Proof.
  intros Pr H3 H. pose proof Pr as (HP & Ha & Hb). destruct (c154_time _ _ _ _ _ _ Pr H) as (E & L & _ & I & _ & PO & PC).
  destruct (time_plot_inv _ _ _ _ _ _ H) as (_ & Ey & Ex & _). unfold sees. rewrite Ex, Ey. rewrite Ey in PC. cbn [fst snd] in *.
  specialize (I eq_refl). apply L in I as [G _]. apply grid_bounds in G as [G _]; [|lia]. specialize (G ltac:(lra)). repeat split; lra.
Qed.

(** argmin takes the first of the least. *)
Lemma argmin_from_first l : forall pre best besti, nth_error pre besti = Some best -> (forall x, In x pre -> best <= x) ->
  (forall j, (j < besti)%nat -> best < nth j pre 0) ->
  let i := argmin_from best besti (length pre) l in forall j, (j < i)%nat -> nth i (pre ++ l) 0 < nth j (pre ++ l) 0.
Proof.
  induction l as [|y l IH]; intros pre best besti Hn Hm Hf; cbn [argmin_from].
  - cbv zeta. rewrite app_nil_r, (nth_error_nth _ _ 0 Hn). exact Hf.
  - assert (length (pre ++ [y]) = S (length pre)) as EL by (rewrite app_length; simpl; lia).
    replace (pre ++ y :: l) with ((pre ++ [y]) ++ l) by now rewrite <- app_assoc.
    rewrite <- EL. assert (besti < length pre)%nat as Lb by (apply nth_error_Some; congruence). destruct (Rlt_dec y best).
    + apply IH.
      * rewrite nth_error_app2 by lia. now rewrite Nat.sub_diag.
      * intros x Hx. apply in_app_or in Hx as [Hx|[<-|[]]]; [|lra]. specialize (Hm x Hx). lra.
      * intros j Hj. rewrite app_nth1 by lia. specialize (Hm (nth j pre 0) ltac:(apply nth_In; lia)). lra.
    + apply IH.
      * rewrite nth_error_app1; [assumption|]. lia.
      * intros x Hx. apply in_app_or in Hx as [Hx|[<-|[]]]; [auto|lra].
      * intros j Hj. rewrite app_nth1 by lia. auto.
Qed.
Lemma argmin_first l i : argmin l = Ok i -> forall j, (j < i)%nat -> nth i l 0 < nth j l 0.
Proof.
  destruct l as [|x l]; [discriminate|]. cbn [argmin]. intros H. injection H as <-.
  apply (argmin_from_first l [x] x 0); [reflexivity| |lia]. intros y [<-|[]]. lra.
Qed.
Definition grid alpha : list R := linspace 1 (alpha * 3) (N.to_nat 10000).
Lemma grid_length alpha : length (grid alpha) = N.to_nat 10000.
Proof. unfold grid, linspace. rewrite map_length, seq_length. reflexivity. Qed.
Lemma grid_nth alpha i : (i < N.to_nat 10000)%nat -> nth i (grid alpha) 0 = 1 + INR i * ((alpha * 3 - 1) / INR (N.to_nat 10000 - 1)).
Proof.
  intros Hi. unfold grid, linspace. set (f := fun i => 1 + INR i * _). rewrite (nth_indep _ 0 (f 0%nat)) by (rewrite map_length, seq_length; exact Hi).
  rewrite map_nth, seq_nth by exact Hi. reflexivity.
Qed.
Lemma grid_mono alpha i j : 1 / 3 <= alpha -> (i <= j < N.to_nat 10000)%nat -> nth i (grid alpha) 0 <= nth j (grid alpha) 0.
Proof.
  intros Ha Hij. rewrite !grid_nth by lia. apply Rplus_le_compat_l. apply Rmult_le_compat_r; [|apply le_INR; lia].
  apply Rmult_le_pos; [lra|]. left. apply Rinv_0_lt_compat. apply lt_0_INR. lia.
Qed.
Lemma grid_in_pos alpha t : 0 < alpha -> In t (grid alpha) -> 0 < t.
Proof. intros Ha H. unfold grid in H. apply linspace_grid in H; [|lia]. apply (grid_pos alpha 10000 t ltac:(lia) Ha 3 ltac:(lra) H). Qed.
Lemma nth_cput PM x alpha beta i : (i < N.to_nat 10000)%nat -> nth i (map (cput_new PM x alpha beta) (grid alpha)) 0 = cput_new PM x alpha beta (nth i (grid alpha) 0).
Proof. intros Hi. rewrite (nth_indep _ 0 (cput_new PM x alpha beta 0)) by (rewrite map_length, grid_length; exact Hi). apply map_nth. Qed.

(** A dearer failure makes the replacement earlier. *)
Lemma calc_ORT_new_mono PM alpha beta x x' r r' : 0 < PM -> 1 / 3 <= alpha -> 1 <= beta -> x <= x' ->
  calc_ORT PM alpha beta 0 x = Ok r -> calc_ORT PM alpha beta 0 x' = Ok r' -> r' <= r.
Proof.
  intros HP Ha Hb Hx H H'. unfold calc_ORT in H, H'. fold (grid alpha) in H, H'.
  destruct (argmin (map (cput_new PM x alpha beta) (grid alpha))) as [i|] eqn:E; cbn [bind] in H; [|discriminate]. apply ok_inj in H. subst r.
  destruct (argmin (map (cput_new PM x' alpha beta) (grid alpha))) as [i'|] eqn:E'; cbn [bind] in H'; [|discriminate]. apply ok_inj in H'. subst r'.
  pose proof (argmin_first _ _ E') as F'. apply argmin_spec in E as [L M]. apply argmin_spec in E' as [L' M'].
  rewrite map_length, grid_length in L, L'. destruct (le_lt_dec i' i) as [Hi|Hi]; [apply grid_mono; [exact Ha|lia]|]. exfalso.
  specialize (F' i Hi). specialize (M (nth i' (map (cput_new PM x alpha beta) (grid alpha)) 0)).
  rewrite !nth_cput in F', M by assumption. specialize (M ltac:(apply in_map; apply nth_In; rewrite grid_length; exact L')).
  set (s := nth i (grid alpha) 0) in *. set (t := nth i' (grid alpha) 0) in *.
  assert (0 < s) as Ps by (apply (grid_in_pos alpha); [lra|]; apply nth_In; rewrite grid_length; exact L).
  assert (s <= t) as St by (apply grid_mono; [exact Ha|lia]).
  pose proof (rate_mono alpha beta s t ltac:(lra) Hb Ps St) as RM.
  pose proof (area_pos alpha beta s ltac:(lra) ltac:(lra) Ps) as As. pose proof (area_pos alpha beta t ltac:(lra) ltac:(lra) ltac:(lra)) as At.
  unfold cput_new in F', M. fold (area alpha beta s) (area alpha beta t) in F', M.
  set (Ss := weibull_sf alpha beta s) in *. set (Sc := weibull_sf alpha beta t) in *. set (A := area alpha beta s) in *. set (B := area alpha beta t) in *.
  assert ((1 - Ss) / A <= (1 - Sc) / B) as RR.
  { apply (Rmult_le_reg_r (A * B)); [nra|]. replace ((1 - Ss) / A * (A * B)) with ((1 - Ss) * B) by (field; lra). replace ((1 - Sc) / B * (A * B)) with ((1 - Sc) * A) by (field; lra). exact RM. }
  assert ((PM * Ss + x' * (1 - Ss)) / A = (PM * Ss + x * (1 - Ss)) / A + (x' - x) * ((1 - Ss) / A)) as E1 by (field; lra).
  assert ((PM * Sc + x' * (1 - Sc)) / B = (PM * Sc + x * (1 - Sc)) / B + (x' - x) * ((1 - Sc) / B)) as E2 by (field; lra).
  rewrite E1, E2 in F'. nra.
Qed.
