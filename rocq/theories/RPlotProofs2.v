(** Proofs about the plot of the replacement time against the ratio of the costs. *)
From Coquelicot Require Import Coquelicot.
From Coq Require Import List Arith Reals Bool Lra Lia ZArith.
From Verif Require Import Base RealFacts NonparModel NonparProofs RandModel RandProofs RoundModel RoundProofs RepairModel RepairSpec RepairProofs RepairProofs3 RPlotModel RPlotSpec RPlotProofs.
Import ListNotations.
Open Scope R_scope.

Lemma calc_opt PM x alpha beta q : PM <= x -> (q <= 1)%nat ->
  exists r c, calc_ORT PM alpha beta q x = Ok r /\ optimal_replacement_time PM x alpha beta q = Ok (r, c).
Proof.
  intros Hx Hq. destruct q as [|[|q]]; [| |lia].
  - destruct (ort_zero_ok PM x alpha beta Hx) as (r & c & E). exists r, c. split; [|exact E].
    unfold optimal_replacement_time in E. destruct (Rltb x PM); [discriminate|]. unfold calc_ORT. fold (grid alpha) in *.
    destruct (argmin (map (cput_new PM x alpha beta) (grid alpha))) as [i|]; cbn [bind] in *; [|discriminate]. apply ok_inj in E. f_equal. exact (f_equal fst E).
  - exists (ort_old PM x alpha beta). eexists. split; [reflexivity|]. unfold optimal_replacement_time. rewrite (proj2 (Rltb_false x PM)) by lra. reflexivity.
Qed.
Lemma upper_ge r : 1 <= r -> (1 <= rne r)%Z /\ r <= IZR (rne r) * 2.
Proof.
  intros H. assert (1 <= rne r)%Z as L. { rewrite <- (rne_IZR 1). now apply rne_mono. } split; [exact L|].
  pose proof (rne_err r) as E. pose proof (Rle_abs (- (IZR (rne r) - r))) as B. rewrite Rabs_Ropp in B. apply IZR_le in L. lra.
Qed.
Lemma in_combine_map {A B} (P : A -> B -> Prop) l : forall m, Forall2 P l m -> (forall x y z, P x y -> P x z -> y = z) -> forall v, In v (combine l m) <-> In (fst v) l /\ P (fst v) (snd v).
Proof.
  induction 1 as [|x y l m Hxy _ IH]; intros U [a b]; cbn [combine In fst snd]; [tauto|]. rewrite (IH U). cbn [fst snd]. split.
  - intros [E|[I Q]]; [injection E as -> ->; auto|auto].
  - intros [[->|I] Q]; [left; f_equal; now apply (U a)|auto].
Qed.
Lemma ratio_plot_ok PM CM alpha beta q : 0 < PM -> PM <= CM -> (q <= 1)%nat ->
  exists ORT c p, optimal_replacement_time PM CM alpha beta q = Ok (ORT, c) /\ ratio_plot PM CM alpha beta q = Ok p /\
    p_mark p = (CM / PM, ORT) /\ p_xlim p = (1, IZR (rne (CM / PM)) * 2) /\ p_ylim p = (0, ORT * 2) /\
    forall v, In v (p_line p) <-> ratio_line PM alpha beta q (IZR (rne (CM / PM)) * 2) v.
Proof.
  intros HP HC Hq. destruct (calc_opt PM CM alpha beta q HC Hq) as (ORT & c & _ & E). exists ORT, c.
  assert (1 <= CM / PM) as Hr. { apply (Rmult_le_reg_r PM); [exact HP|]. unfold Rdiv. rewrite Rmult_assoc, Rinv_l by lra. lra. }
  destruct (upper_ge _ Hr) as [U1 U2]. set (xu := IZR (rne (CM / PM)) * 2) in *. assert (2 <= xu) as U3 by (apply IZR_le in U1; unfold xu; lra).
  assert (forall r, In r (linspace 1 xu 200) -> 1 <= r) as G.
  { intros r Hi. change 200%nat with (N.to_nat 200) in Hi. apply linspace_grid in Hi; [|lia]. apply grid_bounds in Hi as [Hi _]; [|lia]. specialize (Hi ltac:(lra)). lra. }
  destruct (mapM_ok (fun r => calc_ORT PM alpha beta q (r * PM)) (fun r y => exists c, optimal_replacement_time PM (r * PM) alpha beta q = Ok (y, c)) (linspace 1 xu 200)) as (ys & Em & F2).
  { intros r Hi. specialize (G r Hi). destruct (calc_opt PM (r * PM) alpha beta q ltac:(nra) Hq) as (y & cc & E1 & E2). exists y. split; [exact E1|now exists cc]. }
  exists (mkRPlot (combine (linspace 1 xu 200) ys) (CM / PM, ORT) (1, xu) (0, ORT * 2)).
  split; [exact E|]. split.
  { unfold ratio_plot. rewrite E. cbn [bind fst]. destruct (Req_EM_T PM 0); [lra|]. fold xu. rewrite Em. reflexivity. }
  cbn [p_mark p_xlim p_ylim p_line]. repeat (split; [reflexivity|]). intros v. unfold ratio_line.
  rewrite (in_combine_map _ _ _ F2).
  - change 200%nat with (N.to_nat 200). rewrite linspace_grid by lia. reflexivity.
  - intros x y z (c1 & Q1) (c2 & Q2). rewrite Q1 in Q2. apply ok_inj in Q2. exact (f_equal fst Q2).
Qed.
Lemma ratio_plot_inv PM CM alpha beta q p : 0 < PM -> ratio_plot PM CM alpha beta q = Ok p ->
  PM <= CM /\ (q <= 1)%nat /\ exists ORT c, optimal_replacement_time PM CM alpha beta q = Ok (ORT, c) /\
    p_mark p = (CM / PM, ORT) /\ p_xlim p = (1, IZR (rne (CM / PM)) * 2) /\ p_ylim p = (0, ORT * 2) /\
    forall v, In v (p_line p) <-> ratio_line PM alpha beta q (IZR (rne (CM / PM)) * 2) v.
Proof.
  intros HP H. assert (PM <= CM /\ (q <= 1)%nat) as [HC Hq].
  { unfold ratio_plot in H. destruct (optimal_replacement_time PM CM alpha beta q) as [b|] eqn:E; cbn [bind] in H; [|discriminate].
    apply ort_inv in E as [E1 E2]. split; [exact E1|lia]. }
  split; [exact HC|]. split; [exact Hq|]. destruct (ratio_plot_ok PM CM alpha beta q HP HC Hq) as (ORT & c & p' & E & Ep & R).
  rewrite H in Ep. apply ok_inj in Ep. subst p'. exists ORT, c. split; [exact E|exact R].
Qed.
Lemma ort_positive PM x alpha beta q ORT c : proper PM alpha beta q -> optimal_replacement_time PM x alpha beta q = Ok (ORT, c) -> 0 < ORT.
Proof.
  intros (HP & Ha & Hb) E. pose proof (ort_inv _ _ _ _ _ _ E) as [HC [-> | ->]].
  - destruct (ort_new_full _ _ _ _ _ _ E) as (G & _). rewrite (Rmult_comm 3) in G. exact (grid_pos alpha 10000 ORT ltac:(lia) Ha 3 ltac:(lra) G).
  - now destruct (ort_one _ _ _ _ _ _ HP Ha Hb E) as (PO & _).
Qed.

Lemma c154_ratio PM CM alpha beta q p : proper PM alpha beta q -> ratio_plot PM CM alpha beta q = Ok p ->
  fst (p_mark p) = CM / PM /\ (exists c, optimal_replacement_time PM CM alpha beta q = Ok (snd (p_mark p), c)) /\
  (exists m, Rabs (IZR m - CM / PM) <= 1 / 2 /\ p_xlim p = (1, IZR m * 2) /\ forall v, In v (p_line p) <-> ratio_line PM alpha beta q (IZR m * 2) v) /\
  sees p (p_mark p).
Proof.
  intros Pr H. pose proof Pr as (HP & _). destruct (ratio_plot_inv _ _ _ _ _ _ HP H) as (HC & Hq & ORT & c & E & Em & Ex & Ey & L).
  rewrite Em. cbn [fst snd]. split; [reflexivity|]. split; [now exists c|]. split.
  { exists (rne (CM / PM)). split; [apply rne_err|]. split; [exact Ex|exact L]. }
  assert (1 <= CM / PM) as Hr. { apply (Rmult_le_reg_r PM); [exact HP|]. unfold Rdiv. rewrite Rmult_assoc, Rinv_l by lra. lra. }
  pose proof (ort_positive _ _ _ _ _ _ _ Pr E). pose proof (proj2 (upper_ge _ Hr)). unfold sees. rewrite Ex, Ey. cbn [fst snd]. repeat split; lra.
Qed.
Lemma shown_opt PM CM alpha beta q p v : 0 < PM -> ratio_plot PM CM alpha beta q = Ok p -> In v (p_line p) \/ v = p_mark p ->
  1 <= fst v /\ exists c, optimal_replacement_time PM (fst v * PM) alpha beta q = Ok (snd v, c).
Proof.
  intros HP H Hv. destruct (ratio_plot_inv _ _ _ _ _ _ HP H) as (HC & Hq & ORT & c & E & Em & Ex & Ey & L).
  assert (1 <= CM / PM) as Hr. { apply (Rmult_le_reg_r PM); [exact HP|]. unfold Rdiv. rewrite Rmult_assoc, Rinv_l by lra. lra. }
  destruct Hv as [Hv| ->].
  - apply L in Hv as [G O]. split; [|exact O]. apply grid_bounds in G as [G _]; [|lia]. destruct (upper_ge _ Hr) as [U _]. apply IZR_le in U. specialize (G ltac:(lra)). lra.
  - rewrite Em. cbn [fst snd]. split; [exact Hr|]. exists c. replace (CM / PM * PM) with CM by (field; lra). exact E.
Qed.
Lemma c154_ratio_new PM CM alpha beta p : proper PM alpha beta 0 -> 1 / 3 <= alpha -> 1 <= beta -> ratio_plot PM CM alpha beta 0 = Ok p ->
  (forall v w, (In v (p_line p) \/ v = p_mark p) -> (In w (p_line p) \/ w = p_mark p) -> fst v <= fst w -> snd w <= snd v) /\
  (forall v, In v (p_line p) -> CM / PM <= fst v -> sees p v).
Proof.
  intros Pr Ha Hb H. pose proof Pr as (HP & _).
  assert (forall v w, (In v (p_line p) \/ v = p_mark p) -> (In w (p_line p) \/ w = p_mark p) -> fst v <= fst w -> snd w <= snd v) as M.
  { intros v w Hv Hw Hvw. destruct (shown_opt _ _ _ _ _ _ _ HP H Hv) as [V1 (cv & Ev)]. destruct (shown_opt _ _ _ _ _ _ _ HP H Hw) as [W1 (cw & Ew)].
    destruct (calc_opt PM (fst v * PM) alpha beta 0 ltac:(nra) ltac:(lia)) as (r & c & E1 & E2). rewrite Ev in E2. apply ok_inj in E2. injection E2 as <- _.
    destruct (calc_opt PM (fst w * PM) alpha beta 0 ltac:(nra) ltac:(lia)) as (r' & c' & E1' & E2'). rewrite Ew in E2'. apply ok_inj in E2'. injection E2' as <- _.
    apply (calc_ORT_new_mono PM alpha beta (fst v * PM) (fst w * PM)); try assumption. apply Rmult_le_compat_r; lra. }
  split; [exact M|]. intros v Hv Hge. destruct (c154_ratio _ _ _ _ _ _ Pr H) as (Ef & _ & _ & S).
  destruct (shown_opt _ _ _ _ _ _ _ HP H (or_introl Hv)) as [V1 (cv & Ev)]. pose proof (ort_positive _ _ _ _ _ _ _ Pr Ev) as PV.
  destruct (ratio_plot_inv _ _ _ _ _ _ HP H) as (HC & Hq & ORT & c & E & Em & Ex & Ey & L).
  specialize (M (p_mark p) v (or_intror eq_refl) (or_introl Hv)). rewrite Em in M. cbn [fst snd] in M. specialize (M Hge).
  apply L in Hv as [G _]. apply grid_bounds in G as [G _]; [|lia].
  assert (1 <= CM / PM) as Hr. { apply (Rmult_le_reg_r PM); [exact HP|]. unfold Rdiv. rewrite Rmult_assoc, Rinv_l by lra. lra. }
  destruct (upper_ge _ Hr) as [U _]. apply IZR_le in U. specialize (G ltac:(lra)).
  unfold sees. rewrite Ex, Ey. cbn [fst snd]. repeat split; lra.
Qed.

(** * As good as old *)
Lemma ort_old_ratio PM r alpha beta : 0 < PM -> 1 < beta -> ort_old PM (r * PM) alpha beta = alpha * Rpower (r / (beta - 1)) (1 / beta).
Proof. intros HP Hb. unfold ort_old. do 2 f_equal. field. lra. Qed.
Lemma old_shown PM CM alpha beta p v : proper PM alpha beta 1 -> ratio_plot PM CM alpha beta 1 = Ok p -> In v (p_line p) \/ v = p_mark p ->
  1 <= fst v /\ snd v = alpha * Rpower (fst v / (beta - 1)) (1 / beta).
Proof.
  intros (HP & Ha & Hb) H Hv. destruct (shown_opt _ _ _ _ _ _ _ HP H Hv) as [V1 (c & E)]. split; [exact V1|].
  unfold optimal_replacement_time in E. destruct (Rltb (fst v * PM) PM); [discriminate|]. apply ok_inj in E. rewrite <- ort_old_ratio with (PM := PM) by assumption. symmetry. exact (f_equal fst E).
Qed.
Lemma Rpower_incr_l a b c : 0 < c -> 0 < a -> a < b -> Rpower a c < Rpower b c.
Proof. intros. unfold Rpower. apply exp_increasing. apply Rmult_lt_compat_l; [assumption|]. now apply ln_increasing. Qed.
Lemma c154_ratio_old PM CM alpha beta p : proper PM alpha beta 1 -> ratio_plot PM CM alpha beta 1 = Ok p ->
  forall v w, (In v (p_line p) \/ v = p_mark p) -> (In w (p_line p) \/ w = p_mark p) -> fst v < fst w -> snd v < snd w.
Proof.
  intros Pr H v w Hv Hw L. pose proof Pr as (HP & Ha & Hb). destruct (old_shown _ _ _ _ _ _ Pr H Hv) as [V1 ->]. destruct (old_shown _ _ _ _ _ _ Pr H Hw) as [W1 ->].
  apply Rmult_lt_compat_l; [exact Ha|]. assert (0 < / (beta - 1)) as Pi by (apply Rinv_0_lt_compat; lra). apply Rpower_incr_l.
  - apply Rdiv_lt_0_compat; lra.
  - apply Rmult_lt_0_compat; lra.
  - apply Rmult_lt_compat_r; assumption.
Qed.
Lemma c154_ratio_view_old PM CM alpha beta p : proper PM alpha beta 1 -> ratio_plot PM CM alpha beta 1 = Ok p ->
  (forall v, In v (p_line p) -> sees p v) <-> snd (p_xlim p) <= CM / PM * Rpower 2 beta.
Proof.
  intros Pr H. pose proof Pr as (HP & Ha & Hb). destruct (ratio_plot_inv _ _ _ _ _ _ HP H) as (HC & Hq & ORT & c & E & Em & Ex & Ey & L).
  assert (1 <= CM / PM) as Hr. { apply (Rmult_le_reg_r PM); [exact HP|]. unfold Rdiv. rewrite Rmult_assoc, Rinv_l by lra. lra. }
  destruct (upper_ge _ Hr) as [U1 _]. apply IZR_le in U1. set (r := CM / PM) in *. set (xu := IZR (rne r) * 2) in *. assert (2 <= xu) as U by (unfold xu; lra).
  assert (0 < 1 / beta) as Pi by (apply Rdiv_lt_0_compat; lra). assert (0 < / (beta - 1)) as Pd by (apply Rinv_0_lt_compat; lra).
  assert (ORT = alpha * Rpower (r / (beta - 1)) (1 / beta)) as EO.
  { destruct (old_shown _ _ _ _ _ (p_mark p) Pr H (or_intror eq_refl)) as [_ Q]. rewrite Em in Q. exact Q. }
  assert (ORT * 2 = alpha * Rpower (r * Rpower 2 beta / (beta - 1)) (1 / beta)) as E2.
  { rewrite EO. replace (r * Rpower 2 beta / (beta - 1)) with (r / (beta - 1) * Rpower 2 beta) by (field; lra).
    rewrite <- Rpower_mult_distr; [|apply Rmult_lt_0_compat; lra|apply exp_pos]. rewrite Rpower_mult. replace (beta * (1 / beta)) with 1 by (field; lra). rewrite Rpower_1 by lra. ring. }
  assert (0 < r * Rpower 2 beta / (beta - 1)) as Pq. { apply Rmult_lt_0_compat; [apply Rmult_lt_0_compat; [lra|apply exp_pos]|exact Pd]. }
  unfold sees. rewrite Ex, Ey. cbn [fst snd]. rewrite E2. split.
  - intros V. assert (In (xu, alpha * Rpower (xu / (beta - 1)) (1 / beta)) (p_line p)) as I.
    { apply L. split; cbn [fst snd]; [exists (N.to_nat 199); split; [lia|]; replace (INR (N.to_nat 199)) with 199 by (rewrite INR_IZR_INZ, N_nat_Z; reflexivity); change (IZR (Z.of_N 200)) with 200; field|].
      unfold optimal_replacement_time. rewrite (proj2 (Rltb_false (xu * PM) PM)) by nra. cbv zeta. rewrite ort_old_ratio by assumption. eexists. reflexivity. }
    specialize (V _ I). cbn [fst snd] in V. destruct V as [_ [_ V]]. destruct (Rle_dec xu (r * Rpower 2 beta)) as [|N]; [assumption|]. exfalso. apply Rnot_le_lt in N.
    assert (Rpower (r * Rpower 2 beta / (beta - 1)) (1 / beta) < Rpower (xu / (beta - 1)) (1 / beta)); [|nra].
    apply Rpower_incr_l; [exact Pi|exact Pq|]. apply Rmult_lt_compat_r; assumption.
  - intros V v Hv. destruct (old_shown _ _ _ _ _ _ Pr H (or_introl Hv)) as [V1 Q]. apply L in Hv as [G _]. apply grid_bounds in G as [G _]; [|lia]. specialize (G ltac:(lra)).
    rewrite Q. assert (0 < Rpower (fst v / (beta - 1)) (1 / beta)) as P0 by apply exp_pos. split; [lra|]. split; [nra|]. apply Rmult_le_compat_l; [lra|].
    apply Rle_Rpower_l; [lra|]. split; [apply Rmult_lt_0_compat; lra|]. apply Rmult_le_compat_r; [lra|]. lra.
Qed.
Lemma c154_ratio_view_old_3_2 PM CM alpha beta p : proper PM alpha beta 1 -> 3 / 2 <= beta -> ratio_plot PM CM alpha beta 1 = Ok p -> forall v, In v (p_line p) -> sees p v.
Proof.
  intros Pr Hb H. apply (c154_ratio_view_old _ _ _ _ _ Pr H). pose proof Pr as (HP & Ha & _). destruct (ratio_plot_inv _ _ _ _ _ _ HP H) as (HC & Hq & ORT & c & E & Em & Ex & Ey & L).
  rewrite Ex. cbn [snd].
  assert (1 <= CM / PM) as Hr. { apply (Rmult_le_reg_r PM); [exact HP|]. unfold Rdiv. rewrite Rmult_assoc, Rinv_l by lra. lra. } set (r := CM / PM) in *.
  assert (8 / 3 <= Rpower 2 beta) as B.
  { apply Rle_trans with (Rpower 2 (1 + / 2)); [|apply Rle_Rpower; lra]. rewrite Rpower_plus, Rpower_1, Rpower_sqrt by lra.
    assert (4 / 3 <= sqrt 2); [|lra]. apply Rsqr_incr_0_var; [|apply sqrt_pos]. rewrite Rsqr_sqrt by lra. unfold Rsqr. lra. }
  pose proof (rne_err r) as R. pose proof (Rle_abs (IZR (rne r) - r)) as A.
  destruct (Rlt_dec r (3 / 2)) as [N|N]; [|nra].
  rewrite (rne_near r 1) by (apply Rabs_def1; lra). nra.
Qed.

(** * What falls outside *)
Lemma equal_costs alpha beta t : cput_new 1 1 alpha beta t = / area alpha beta t.
Proof. unfold cput_new. fold (area alpha beta t). set (s := weibull_sf alpha beta t). unfold Rdiv. replace (1 * s + 1 * (1 - s)) with 1 by ring. ring. Qed.
Lemma equal_costs_last alpha beta ORT c t : 0 < alpha -> 0 < beta -> optimal_replacement_time 1 1 alpha beta 0 = Ok (ORT, c) -> on_grid 1 (3 * alpha) 10000 t -> t <= ORT.
Proof.
  intros Ha Hb E G. assert (0 < ORT) as PO by (apply (ort_positive 1 1 alpha beta 0 ORT c); [repeat split; lra|exact E]).
  destruct (ort_new_full _ _ _ _ _ _ E) as (_ & C & M). specialize (M t G). rewrite C in M.
  change (cput_new 1 1 alpha beta ORT <= cput_new 1 1 alpha beta t) in M. rewrite !equal_costs in M.
  destruct (Rle_dec t ORT) as [|N]; [assumption|]. exfalso. apply Rnot_le_lt in N.
  pose proof (area_incr alpha beta ORT t Ha Hb ltac:(lra) N) as I. pose proof (area_pos alpha beta ORT Ha Hb PO) as P.
  apply Rinv_lt_contravar in I; [lra|]. apply Rmult_lt_0_compat; lra.
Qed.
Lemma grid_ends a b n : (2 <= n)%N -> on_grid a b n a /\ on_grid a b n b.
Proof.
  intros Hn. split; [exists 0%nat|exists (N.to_nat (n - 1))]; (split; [lia|]); [simpl; ring|].
  rewrite INR_IZR_INZ, N_nat_Z, N2Z.inj_sub, minus_IZR by lia. change (IZR (Z.of_N 1)) with 1. field.
  replace 1 with (IZR 1) by reflexivity. rewrite <- minus_IZR. apply not_0_IZR. lia.
Qed.
Lemma c154_time_new_out : exists p, time_plot 1 1 (1 / 10) 2 0 = Ok p /\ ~ sees p (p_mark p).
Proof.
  destruct (ort_zero_ok 1 1 (1 / 10) 2 ltac:(lra)) as (ORT & c & E). 
  pose proof (equal_costs_last (1 / 10) 2 ORT c 1 ltac:(lra) ltac:(lra) E (proj1 (grid_ends 1 (3 * (1 / 10)) 10000 ltac:(lia)))) as L.
  assert (exists p, time_plot 1 1 (1 / 10) 2 0 = Ok p) as (p & H). { unfold time_plot. rewrite E. cbn [bind]. eexists. reflexivity. }
  exists p. split; [exact H|]. destruct (time_plot_inv _ _ _ _ _ _ H) as (E' & _ & Ex & _). rewrite E in E'. apply ok_inj in E'. unfold sees. rewrite <- E', Ex. cbn [fst snd]. intros [[_ V] _]. lra.
Qed.
Lemma c154_time_old_out : exists p, time_plot 1 25 1 2 1 = Ok p /\ ~ sees p (p_mark p).
Proof.
  assert (exists p, time_plot 1 25 1 2 1 = Ok p) as (p & H).
  { unfold time_plot, optimal_replacement_time. rewrite (proj2 (Rltb_false 25 1)) by lra. cbn [bind]. eexists. reflexivity. }
  exists p. split; [exact H|]. rewrite (c154_time_view_old 1 25 1 2 p); [|repeat split; lra|exact H]. rewrite Rpower_2 by lra. lra.
Qed.
Lemma c154_ratio_old_out : exists p v, ratio_plot 5 8 1 (5 / 4) 1 = Ok p /\ In v (p_line p) /\ ~ sees p v.
Proof.
  destruct (ratio_plot_ok 5 8 1 (5 / 4) 1 ltac:(lra) ltac:(lra) ltac:(lia)) as (ORT & c & p & E & H & Em & Ex & Ey & L).
  assert (proper 5 1 (5 / 4) 1) as Pr by (repeat split; lra). exists p.
  assert (rne (8 / 5) = 2%Z) as R by (apply rne_near; apply Rabs_def1; lra). rewrite R in Ex, L.
  assert (~ (forall v, In v (p_line p) -> sees p v)) as NV.
  { rewrite (c154_ratio_view_old _ _ _ _ _ Pr H), Ex. cbn [snd]. assert (Rpower 2 (5 / 4) < 5 / 2); [|lra].
    replace (5 / 4) with (1 + / 2 * / 2) by field. rewrite Rpower_plus, Rpower_1, <- Rpower_mult, Rpower_sqrt, Rpower_sqrt by (try apply exp_pos; lra).
    assert (sqrt (sqrt 2) < 5 / 4); [|lra]. rewrite <- (sqrt_Rsqr (5 / 4)) by lra. apply sqrt_lt_1; [apply sqrt_pos|unfold Rsqr; lra|].
    rewrite <- (sqrt_Rsqr (Rsqr (5 / 4))) by (unfold Rsqr; lra). apply sqrt_lt_1; unfold Rsqr; lra. }
  destruct (Classical_Pred_Type.not_all_ex_not _ _ NV) as (v & Nv). exists v. split; [exact H|]. apply Classical_Prop.imply_to_and in Nv. exact Nv.
Qed.
Lemma c154_ratio_new_out : exists p v, ratio_plot 1 1000000 1000 2 0 = Ok p /\ In v (p_line p) /\ ~ sees p v.
Proof.
  destruct (ratio_plot_ok 1 1000000 1000 2 0 ltac:(lra) ltac:(lra) ltac:(lia)) as (ORT & c & p & E & H & Em & Ex & Ey & L).
  destruct (ort_zero_ok 1 1 1000 2 ltac:(lra)) as (T & c1 & E1). exists p, (1, T). split; [exact H|]. split.
  { apply L. split; cbn [fst snd]; [apply grid_ends; lia|]. exists c1. rewrite Rmult_1_l. exact E1. }
  pose proof (equal_costs_last 1000 2 T c1 3000 ltac:(lra) ltac:(lra) E1) as LT.
  replace (3 * 1000) with 3000 in LT by ring. specialize (LT (proj2 (grid_ends 1 3000 10000 ltac:(lia)))).
  assert (ORT < 1500) as LO.
  { destruct (ort_new_full _ _ _ _ _ _ E) as (G & C & M). specialize (M 1 (proj1 (grid_ends 1 (3 * 1000) 10000 ltac:(lia)))).
    destruct (Rlt_dec ORT 1500) as [|N]; [assumption|]. exfalso. apply Rnot_lt_le in N. apply grid_bounds in G as [G _]; [|lia]. specialize (G ltac:(lra)).
    rewrite C in M. change (cput_new 1 1000000 1000 2 ORT <= cput_new 1 1000000 1000 2 1) in M. unfold cput_new in M. fold (area 1000 2 ORT) (area 1000 2 1) in M.
    pose proof (area_le 1000 2 ORT ltac:(lra) ltac:(lra) ltac:(lra)) as A1. pose proof (area_pos 1000 2 ORT ltac:(lra) ltac:(lra) ltac:(lra)) as A0.
    pose proof (area_ge 1000 2 1 ltac:(lra) ltac:(lra) ltac:(lra)) as A2. rewrite Rmult_1_l in A2.
    assert (weibull_sf 1000 2 ORT <= 1 / 2) as S1.
    { unfold weibull_sf. destruct (Req_EM_T ORT 0); [lra|]. rewrite Rpower_2 by (apply Rdiv_lt_0_compat; lra).
      assert (1 <= ORT / 1000 * (ORT / 1000)) as Q by nra. rewrite exp_Ropp.
      assert (2 <= exp (ORT / 1000 * (ORT / 1000))). { pose proof (exp_ineq1_le (ORT / 1000 * (ORT / 1000))). lra. }
      replace (1 / 2) with (/ 2) by field. apply Rinv_le_contravar; lra. }
    assert (1 - 1 / 1000000 <= weibull_sf 1000 2 1 <= 1) as S2.
    { split; [|apply wsf_range; lra]. unfold weibull_sf. destruct (Req_EM_T 1 0); [lra|]. rewrite Rpower_2 by lra.
      pose proof (exp_ineq1_le (- (1 / 1000 * (1 / 1000)))). lra. }
    pose proof (wsf_range 1000 2 ORT ltac:(lra) ltac:(lra) ltac:(lra)) as S0.
    set (s := weibull_sf 1000 2 ORT) in *. set (u := weibull_sf 1000 2 1) in *. set (A := area 1000 2 ORT) in *. set (B := area 1000 2 1) in *.
    assert ((1 * u + 1000000 * (1 - u)) / B <= 3) as Q1. { apply (Rmult_le_reg_r B); [lra|]. unfold Rdiv. rewrite Rmult_assoc, Rinv_l by lra. lra. }
    assert (3 < (1 * s + 1000000 * (1 - s)) / A) as Q2. { apply (Rmult_lt_reg_r A); [lra|]. unfold Rdiv. rewrite Rmult_assoc, Rinv_l by lra. lra. }
    lra. }
  unfold sees. rewrite Ey. cbn [fst snd]. intros [_ [_ V]]. lra.
Qed.
