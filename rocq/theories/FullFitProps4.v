(** The properties C145 and C146: maximum likelihood against least squares, and the regression that is asked for. *)
From Coquelicot Require Import Coquelicot.
From Coq Require Import String.
From Coq Require Import List Arith ZArith Reals Lra Lia Bool Permutation FunctionalExtensionality.
From Verif Require Import Base RealFacts Ext Gauss RList ConvertModel DistModel NonparModel NonparProps QQSpec CIModel CISpec CIProofs SelModel SelSpec SelProofs InputModel CombModel CombSpec FitModel FitSpec FitProofs FitProps RegModel RegProofs FArgModel FArgSpec FArgProps PlotModel GroupModel PPlotSpec PPlotProofs PPlotProps FullFitModel FullFitSpec FullFitProofs FullFitProps FullFitProps2 FullFitProps3.
Import ListNotations.
Open Scope R_scope.

Lemma checked_method d a m m' k k' : fitters_input_checking d (own_args d (by_method a m)) = Ok k -> fitters_input_checking d (own_args d (by_method a m')) = Ok k' ->
  i_failures k' = i_failures k /\ i_right_censored k' = i_right_censored k /\ i_optimizer k' = i_optimizer k /\ own_force d k' = own_force d k.
Proof.
  intros H H'. pose proof (forced_is d _ k H) as E1. pose proof (forced_is d _ k' H') as E2. rewrite E1, E2. clear E1 E2.
  unfold fitters_input_checking, own_args, by_method in H, H'. cbn [a_failures a_right_censored a_method a_optimizer a_CI a_quantiles a_force_beta a_force_sigma a_CI_type] in H, H'.
  destruct (a_failures a); try discriminate H.
  repeat match type of H with
  | bind _ _ = Ok _ => apply bind_ok in H; let x := fresh "x" in let HX := fresh "HX" in destruct H as (x & HX & H)
  | (if ?b then Err _ else _) = Ok _ => destruct b; [discriminate H|]
  end.
  repeat match type of H' with
  | bind _ _ = Ok _ => apply bind_ok in H'; let x := fresh "y" in let HX := fresh "HY" in destruct H' as (x & HX & H')
  end.
  apply Ok_inj in H, H'. subst k k'. cbn [i_failures i_right_censored i_optimizer].
  repeat match goal with H1 : ?e = Ok ?u, H2 : ?e = Ok ?v |- _ => rewrite H1 in H2; apply Ok_inj in H2; subst end.
  repeat split; reflexivity.
Qed.

Section Oracles.
  Context (ls : dname -> option rr -> option R -> list R -> list R -> result (list R))
          (minimize : list (option R * option R) -> opt -> (list R -> R) -> list R -> bool * list R)
          (inv : (list R -> R) -> list R -> option (nat -> nat -> R))
          (sort : list (nat * NonparModel.row) -> list (nat * NonparModel.row))
          (gj : gamma_jac).
  Notation fit := (fit ls minimize inv sort gj).

  (** The estimates reported, unless the two-parameter fitter took over. *)
  Lemma fit_estimate d a r : fit d a = Ok r -> (n_params d = 3%nat -> 0 < location d (f_params r)) -> exists k, fitters_input_checking d (own_args d a) = Ok k /\
    f_failures r = i_failures k /\ f_right_censored r = i_right_censored k /\
    estimate ls minimize d (i_method k) (own_force d k) (i_optimizer k) (i_failures k) (i_right_censored k) = Ok (f_params r, f_method r, f_optimizer r).
  Proof.
    intros H H3. unfold FullFitModel.fit in H. destruct (smaller d) as [d2|] eqn:ES.
    - apply three_is in H. destruct H as (k & p & name & o & HK & HE & H).
      assert (own_force d k = None) as EO by (destruct d; try discriminate ES; reflexivity).
      assert (n_params d = 3%nat) as EN by (destruct d; try discriminate ES; reflexivity). specialize (H3 EN).
      destruct H as [(_ & r2 & H2 & H)|(HL2 & rows & HR & H)]; apply assemble_is in H; cbv zeta in H; destruct H as (EP & ER & EC & _ & EM & EOp & EF & ECe & _).
      + exfalso. assert (location d (f_params r) = 0) as E0; [|lra]. assert (forall q, location d q = nth 2 q 0) as -> by (destruct d; try discriminate ES; reflexivity).
        rewrite EP. destruct (f_params r2) as [|u [|w [|z l]]]; reflexivity.
      + exists k. rewrite EP, EM, EOp, EO. auto.
    - apply plain_is in H. destruct H as (k & p & name & o & rows & HK & HE & HR & H). apply assemble_is in H. cbv zeta in H. destruct H as (EP & ER & EC & _ & EM & EOp & EF & ECe & _).
      exists k. rewrite EP, EM, EOp. auto.
  Qed.
  Lemma loglik_is d a r k : complete_guess ls -> single d -> fit d a = Ok r -> fitters_input_checking d (own_args d a) = Ok k -> f_failures r = i_failures k -> f_right_censored r = i_right_censored k ->
    estimate ls minimize d (i_method k) (own_force d k) (i_optimizer k) (i_failures k) (i_right_censored k) = Ok (f_params r, f_method r, f_optimizer r) ->
    loglik (f_gof r) = - objective d (own_force d k) (i_failures k) (i_right_censored k) (f_params r).
  Proof.
    intros HG S H HK EF EC HE. rewrite (gof_is ls minimize inv sort gj d a r HG S H), EF, EC. rewrite (objective_is d _ _ _ _ (keeps_shape ls minimize d k _ _ _ HG HE)).
    unfold goodness. cbn [loglik]. field.
  Qed.
  Lemma asked_method d a k c : fitters_input_checking d (own_args d a) = Ok k -> understood method_names (a_method a) (Some c) -> i_method k = Some c.
  Proof.
    intros HK HU. apply C129_accepts in HK. destruct HK as (f & rc & n & _ & _ & _ & _ & _ & _ & _ & _ & _ & _ & H & _). cbn [own_args a_method] in H.
    destruct (a_method a); [discriminate HU| |destruct HU]. destruct HU as (c1 & H1 & E1), H as (c2 & H2 & E2). rewrite E2. injection E1 as <-. f_equal.
    revert H1 H2. unfold method_names. cbn [In]. generalize (upper s). intros u H1 H2.
    repeat (destruct H1 as [H1|H1]; [injection H1 as <- <-; repeat (destruct H2 as [H2|H2]; [try discriminate H2; injection H2 as <-; reflexivity|]); destruct H2|]). destruct H1.
  Qed.
  Lemma not_worse d force o F C p g name name' o' o'' : never_worse minimize -> single d -> (d = D_Exponential_2P -> nth 0 g 0 <> 0) -> (force <> None -> d = D_Weibull_2P \/ d = D_Normal_2P \/ d = D_Lognormal_2P) ->
    estimate ls minimize d (Some "MLE"%string) force o F C = Ok (p, name, o') -> estimate ls minimize d (Some "LS"%string) force o F C = Ok (g, name', o'') ->
    objective d force F C p <= objective d force F C g.
  Proof.
    intros HW S HN HF H1 H2. unfold estimate in H1, H2. assert (LS_method d (Some "MLE"%string) = Some "LS"%string /\ LS_method d (Some "LS"%string) = Some "LS"%string) as [E1 E2] by (destruct d; split; reflexivity).
    rewrite E1 in H1. rewrite E2 in H2. apply bind_ok in H1, H2. destruct H1 as ((m, g0) & HL & H1), H2 as ((m', g1) & HL' & H2). rewrite HL in HL'. apply Ok_inj in HL'.
    assert (m' = m /\ g1 = g0) as [-> ->] by (split; congruence). cbn [fst snd] in H1, H2. change (String.eqb "LS" "MLE") with false in H2. change (String.eqb "MLE" "MLE") with true in H1. cbv iota in H1, H2.
    assert (g0 = g) as -> by congruence. apply bind_ok in H1. destruct H1 as ((x, ox) & HX & H1). cbn [fst snd] in H1. assert (x = p) as -> by congruence. clear H1 H2 HL'.
    unfold MLE_estimate in HX. destruct force as [s|].
    - apply bind_ok in HX. destruct HX as ((y, oy) & HY & HX). cbn [fst snd] in HX. assert (p = [nth 0 y 0; s]) as -> by (apply Ok_inj in HX; congruence).
      assert (objective d (Some s) F C y <= objective d (Some s) F C (firstn 1 g)) as HQ
        by (refine (maximise_inv minimize _ _ _ _ _ _ (fun l => objective d (Some s) F C l <= objective d (Some s) F C (firstn 1 g)) _ HY _); [intros m0 g0 H0; eapply Rle_trans; [apply HW|exact H0]|lra]).
      destruct (HF ltac:(discriminate)) as [-> |[-> | ->]]; cbn [objective nth] in *; destruct g; cbn [firstn nth] in *; exact HQ.
    - destruct (dname_eqb d D_Exponential_2P && Rltb' (nth 0 g 0) 1) eqn:EE.
      + assert (d = D_Exponential_2P) as -> by (destruct d; try discriminate EE; reflexivity). apply bind_ok in HX. destruct HX as ((y, oy) & HY & HX). cbn [fst snd] in HX.
        assert (p = [1 / nth 0 y 0; nth 1 y 0]) as -> by (apply Ok_inj in HX; congruence). specialize (HN eq_refl).
        set (f := fun q : list R => Exponential_2P_LL_inv (nth 0 q 0) (nth 1 q 0) F C) in *.
        assert (f y <= f [1 / nth 0 g 0; nth 1 g 0]) as HQ
          by (refine (maximise_inv minimize _ _ _ _ _ _ (fun l => f l <= f [1 / nth 0 g 0; nth 1 g 0]) _ HY _); [intros m0 g0 H0; eapply Rle_trans; [apply HW|exact H0]|lra]).
        unfold f, Exponential_2P_LL_inv in HQ. cbn [nth] in HQ. replace (1 / (1 / nth 0 g 0)) with (nth 0 g 0) in HQ by (field; exact HN).
        cbn [objective model_of nth]. unfold LL. cbn [log0 length]. rewrite !Rplus_0_l. exact HQ.
      + refine (maximise_inv minimize _ _ _ _ _ _ (fun l => objective d None F C l <= objective d None F C g) _ HX _); [intros m0 g0 H0; eapply Rle_trans; [apply HW|exact H0]|lra].
  Qed.

  (** ** C145 Maximum likelihood is at least as likely as least squares *)
  Theorem C145_least_squares_partial d a m m' r s : complete_guess ls -> never_worse minimize -> single d ->
    understood method_names m (Some "MLE"%string) -> understood method_names m' (Some "LS"%string) ->
    fit d (by_method a m) = Ok r -> fit d (by_method a m') = Ok s ->
    (n_params d = 3%nat -> 0 < location d (f_params r) /\ 0 < location d (f_params s)) -> (d = D_Exponential_2P -> 0 < nth 0 (f_params s) 0) ->
    loglik (f_gof s) <= loglik (f_gof r).
  Proof.
    intros HG HW S HM HM' H H' H3 HN. destruct (fit_estimate d _ r H) as (k & HK & EF & EC & HE); [intros E; apply (H3 E)|]. destruct (fit_estimate d _ s H') as (k' & HK' & EF' & EC' & HE'); [intros E; apply (H3 E)|].
    rewrite (loglik_is d _ r k HG S H HK EF EC HE), (loglik_is d _ s k' HG S H' HK' EF' EC' HE').
    destruct (checked_method d a m m' k k' HK HK') as (E1 & E2 & E3 & E4). rewrite (asked_method d _ k _ HK HM) in HE. rewrite (asked_method d _ k' _ HK' HM') in HE'. rewrite E1, E2, E3, E4 in *.
    apply Ropp_le_contravar. eapply not_worse; [exact HW|exact S| |apply own_force_plain|exact HE|exact HE']. intros E. specialize (HN E). lra.
  Qed.

  (** ** C146 Least squares uses the regression that is asked for *)
  (** The fitters that can be fitted by rank regression. *)
  Theorem C146_rank_regression_partial d a r c q : single d -> rank_regression d = true -> fit d a = Ok r ->
    (c = "RRX"%string /\ q = RRX) \/ (c = "RRY"%string /\ q = RRY) -> understood method_names (a_method a) (Some c) ->
    ls d (Some q) (forced_shape d a) (f_failures r) (f_right_censored r) = Ok (f_params r) /\ f_method r = ("Least Squares Estimation (" ++ c ++ ")")%string.
  Proof.
    intros S HR H Hq HU. destruct (fit_estimate d a r H) as (k & HK & EF & EC & HE); [intros E; destruct d; discriminate|].
    rewrite (asked_method d a k c HK HU), (forced_is d a k HK) in HE. rewrite EF, EC. unfold estimate in HE. apply bind_ok in HE. destruct HE as ((m, g) & HL & HE). cbn [fst snd] in HE.
    assert (LS_method d (Some c) = Some c /\ String.eqb c "MLE" = false) as [E1 E2] by (destruct Hq as [[-> ->]|[-> ->]]; destruct d; try discriminate HR; split; reflexivity). rewrite E1 in HL. rewrite E2 in HE.
    assert (g = f_params r /\ ("Least Squares Estimation (" ++ m ++ ")")%string = f_method r) as [-> <-] by (apply Ok_inj in HE; split; congruence).
    unfold LS_optimization in HL. assert (nonlinear d = false) as E3 by (destruct d; try discriminate HR; reflexivity). rewrite E3 in HL.
    destruct Hq as [[-> ->]|[-> ->]]; apply bind_ok in HL; destruct HL as (g' & HL & E); apply Ok_inj in E; injection E as Em Eg; rewrite <- Em, <- Eg; (split; [exact HL|reflexivity]).
  Qed.
  (** 'LS' takes one of the two, and if both log-likelihoods are not positive the more likely one. *)
  Theorem C146_better_partial d a r : single d -> rank_regression d = true -> complete_guess ls -> fit d a = Ok r -> understood method_names (a_method a) (Some "LS"%string) ->
    exists gx gy, let F := f_failures r in let C := f_right_censored r in let L := fun g => - LL (model_of d g) [] F C in
      ls d (Some RRX) (forced_shape d a) F C = Ok gx /\ ls d (Some RRY) (forced_shape d a) F C = Ok gy /\
      ((f_params r = gx /\ f_method r = "Least Squares Estimation (RRX)"%string) \/ (f_params r = gy /\ f_method r = "Least Squares Estimation (RRY)"%string)) /\
      (L gx <= 0 -> L gy <= 0 -> L gx <= loglik (f_gof r) /\ L gy <= loglik (f_gof r)).
  Proof.
    intros S HR HG H HU. pose proof (gof_is ls minimize inv sort gj d a r HG S H) as EG. destruct (fit_estimate d a r H) as (k & HK & EF & EC & HE); [intros E; destruct d; discriminate|].
    rewrite (asked_method d a k _ HK HU), (forced_is d a k HK) in HE. rewrite EF, EC in *. unfold estimate in HE. apply bind_ok in HE. destruct HE as ((m, g) & HL & HE). cbn [fst snd] in HE.
    assert (LS_method d (Some "LS"%string) = Some "LS"%string) as E1 by (destruct d; reflexivity). rewrite E1 in HL. change (String.eqb "LS" "MLE") with false in HE. cbv iota in HE.
    assert (g = f_params r /\ ("Least Squares Estimation (" ++ m ++ ")")%string = f_method r) as [Eg Em] by (apply Ok_inj in HE; split; congruence). subst g. rewrite <- Em. clear HE Em.
    unfold LS_optimization in HL. assert (nonlinear d = false) as E3 by (destruct d; try discriminate HR; reflexivity). rewrite E3 in HL.
    change (negb (str_in "LS" ["RRX"; "RRY"; "LS"; "NLLS"]%string)) with false in HL. change (String.eqb "LS" "RRX") with false in HL. change (String.eqb "LS" "RRY") with false in HL. cbv iota in HL.
    apply bind_ok in HL. destruct HL as (gx & HX & HL). apply bind_ok in HL. destruct HL as (gy & HY & HL). apply Ok_inj in HL. exists gx, gy. cbv zeta. split; [exact HX|]. split; [exact HY|].
    destruct HG as [_ HG].
    assert (forall g q, ls d (Some q) (forced_shape d a) (i_failures k) (i_right_censored k) = Ok g -> objective d (forced_shape d a) (i_failures k) (i_right_censored k) g = LL (model_of d g) [] (i_failures k) (i_right_censored k)) as HO
      by (intros g q Hg; apply objective_is; intros s Es; rewrite Es in Hg; refine (HG _ _ _ _ _ _ _ Hg); apply (own_force_plain d k); rewrite (forced_is d a k HK); congruence).
    unfold LS_choice in HL. rewrite (HO gx RRX HX), (HO gy RRY HY) in HL. rewrite EG. unfold goodness. cbn [loglik].
    destruct (Rlt_dec _ _) as [Hlt|Hge]; cbn [fst snd] in HL; injection HL as <- <-.
    - split; [left; split; reflexivity|]. intros H1 H2. rewrite !Rabs_left1 in Hlt by assumption. split; lra.
    - split; [right; split; reflexivity|]. intros H1 H2. apply Rnot_lt_le in Hge. rewrite !Rabs_left1 in Hge by assumption. split; lra.
  Qed.
  (** Whatever regression is asked for, the other fitters use non-linear least squares and say so. *)
  Theorem C146_nonlinear d a r c : single d -> rank_regression d = false -> fit d a = Ok r -> (n_params d = 3%nat -> 0 < location d (f_params r)) ->
    understood method_names (a_method a) (Some c) -> c <> "MLE"%string ->
    ls d None None (f_failures r) (f_right_censored r) = Ok (f_params r) /\ f_method r = "Least Squares Estimation (NLLS)"%string.
  Proof.
    intros S HR H H3 HU Hc. destruct (fit_estimate d a r H H3) as (k & HK & EF & EC & HE).
    rewrite (asked_method d a k c HK HU), (forced_is d a k HK) in HE. rewrite EF, EC. unfold estimate in HE. apply bind_ok in HE. destruct HE as ((m, g) & HL & HE). cbn [fst snd] in HE.
    destruct (String.eqb c "MLE") eqn:E2; [apply String.eqb_eq in E2; contradiction|].
    assert (g = f_params r /\ ("Least Squares Estimation (" ++ m ++ ")")%string = f_method r) as [Eg <-] by (apply Ok_inj in HE; split; congruence). subst g.
    unfold LS_optimization in HL. destruct (LS_method d (Some c)); [|discriminate HL]. destruct (negb _); [discriminate HL|]. assert (nonlinear d = true) as E3 by (destruct d; destruct S; try discriminate HR; reflexivity). rewrite E3 in HL.
    apply bind_ok in HL. destruct HL as (g' & HL & E). apply Ok_inj in E. assert (g' = f_params r /\ m = "NLLS"%string) as [-> ->] by (split; congruence). split; [exact HL|reflexivity].
  Qed.
  (** Maximum likelihood against one rank regression, when the log-likelihoods of both are not positive. *)
  Theorem C145_rank_regression_partial d a m mx my r x y : complete_guess ls -> never_worse minimize -> single d -> rank_regression d = true ->
    understood method_names m (Some "MLE"%string) -> understood method_names mx (Some "RRX"%string) -> understood method_names my (Some "RRY"%string) ->
    fit d (by_method a m) = Ok r -> fit d (by_method a mx) = Ok x -> fit d (by_method a my) = Ok y ->
    loglik (f_gof x) <= 0 -> loglik (f_gof y) <= 0 -> loglik (f_gof x) <= loglik (f_gof r) /\ loglik (f_gof y) <= loglik (f_gof r).
  Proof.
    intros HG HW S HR HM HMx HMy H Hx Hy Lx Ly. assert (forall P, n_params d = 3%nat -> P) as N3 by (intros P E; destruct d; discriminate).
    destruct (fit_estimate d _ r H (N3 _)) as (k & HK & EF & EC & HE). destruct (fit_estimate d _ x Hx (N3 _)) as (kx & HKx & EFx & ECx & HEx). destruct (fit_estimate d _ y Hy (N3 _)) as (ky & HKy & EFy & ECy & HEy).
    rewrite (loglik_is d _ r k HG S H HK EF EC HE). rewrite (loglik_is d _ x kx HG S Hx HKx EFx ECx HEx) in *. rewrite (loglik_is d _ y ky HG S Hy HKy EFy ECy HEy) in *.
    destruct (checked_method d a m mx k kx HK HKx) as (X1 & X2 & X3 & X4). destruct (checked_method d a m my k ky HK HKy) as (Y1 & Y2 & Y3 & Y4).
    rewrite (asked_method d _ k _ HK HM) in HE. rewrite X1, X2, X3, X4 in *. rewrite Y1, Y2, Y3, Y4 in *.
    destruct (C146_rank_regression_partial d _ x _ RRX S HR Hx ltac:(auto) HMx) as (GX & _). destruct (C146_rank_regression_partial d _ y _ RRY S HR Hy ltac:(auto) HMy) as (GY & _).
    rewrite EFx, ECx in GX. rewrite EFy, ECy in GY. assert (forall m, forced_shape d (by_method a m) = own_force d k) as EFo by (intros m0; rewrite (forced_is d _ k HK); reflexivity). rewrite EFo in GX, GY.
    set (F := i_failures k) in *. set (C := i_right_censored k) in *. set (force := own_force d k) in *.
    set (g := snd (LS_choice (objective d force F C) (f_params x) (f_params y))).
    assert (estimate ls minimize d (Some "LS"%string) force (i_optimizer k) F C = Ok (g, ("Least Squares Estimation (" ++ match fst (LS_choice (objective d force F C) (f_params x) (f_params y)) with M_RRX => "RRX" | M_RRY => "RRY" end ++ ")")%string, None)) as HLS.
    { unfold estimate, LS_optimization. assert (LS_method d (Some "LS"%string) = Some "LS"%string) as -> by (destruct d; reflexivity). assert (nonlinear d = false) as -> by (destruct d; try discriminate HR; reflexivity).
      change (negb (str_in "LS" ["RRX"; "RRY"; "LS"; "NLLS"]%string)) with false. change (String.eqb "LS" "RRX") with false. change (String.eqb "LS" "RRY") with false. change (String.eqb "LS" "MLE") with false. cbv iota. rewrite GX, GY. reflexivity. }
    assert (objective d force F C (f_params r) <= objective d force F C g) as HB by (eapply not_worse; [exact HW|exact S| |apply own_force_plain|exact HE|exact HLS]; intros ->; discriminate HR).
    unfold g, LS_choice in HB. destruct (Rlt_dec _ _) as [Hlt|Hge]; cbn [snd] in HB.
    - rewrite !Rabs_left1 in Hlt by assumption. split; lra.
    - apply Rnot_lt_le in Hge. rewrite !Rabs_left1 in Hge by assumption. split; lra.
  Qed.
End Oracles.
Print Assumptions C145_least_squares_partial.
Print Assumptions C146_rank_regression_partial.
Print Assumptions C146_better_partial.
Print Assumptions C146_nonlinear.
Print Assumptions C145_rank_regression_partial.
