(** Properties C144-C146: what the fitters of a single distribution report. *)
From Coquelicot Require Import Coquelicot.
From Coq Require Import String.
From Coq Require Import List Arith ZArith Reals Lra Lia Bool Permutation FunctionalExtensionality.
From Verif Require Import Base RealFacts Ext Gauss RList ConvertModel DistModel NonparModel NonparProps CIModel CISpec CIProofs SelModel SelSpec SelProofs InputModel CombModel CombSpec FitModel FitSpec FitProofs FitProps RegModel RegProofs FArgModel FArgSpec FArgProps PlotModel GroupModel FullFitModel FullFitSpec FullFitProofs.
Import ListNotations.
Open Scope R_scope.

Section Oracles.
  (** The least squares routine, scipy's optimizers, the inverse of the matrix of second derivatives,
      pandas' sort, and the derivatives of the incomplete gamma function. *)
  Context (ls : dname -> option rr -> option R -> list R -> list R -> result (list R))
          (minimize : list (option R * option R) -> opt -> (list R -> R) -> list R -> bool * list R)
          (inv : (list R -> R) -> list R -> option (nat -> nat -> R))
          (sort : list (nat * NonparModel.row) -> list (nat * NonparModel.row))
          (gj : gamma_jac).
  Notation fit := (fit ls minimize inv sort gj).

  (** ** C144 *)

  (** The distribution object has the parameters reported. *)
  Theorem C144_distribution d a r : single d -> fit d a = Ok r -> f_distribution r = with_params d (f_params r).
  Proof.
    intros S H. destruct (fit_is _ _ _ _ _ _ _ _ H) as (k & p & rows & s & name & o & HK & HA). apply assemble_is in HA. cbv zeta in HA.
    destruct HA as (-> & _ & _ & -> & _). now apply object_is.
  Qed.
  (** The data are the user's, without the zeros (and ones, for Beta). *)
  Theorem C144_data d a r : fit d a = Ok r ->
    exists f rc, a_failures a = D_seq f /\ (a_right_censored a = D_seq rc \/ (a_right_censored a = D_none /\ rc = [])) /\
      sublist_of (keep d) f (f_failures r) /\ sublist_of (keep d) rc (f_right_censored r).
  Proof.
    intros H. destruct (fit_is _ _ _ _ _ _ _ _ H) as (k & p & rows & s & name & o & HK & HA). apply assemble_is in HA. cbv zeta in HA.
    destruct HA as (_ & _ & _ & _ & _ & _ & -> & -> & _). apply C129_accepts in HK. destruct HK as (f & rc & n & H1 & H2 & _ & H3 & H4 & _). exists f, rc. auto.
  Qed.

  Lemma forced_is d a k : fitters_input_checking d (own_args d a) = Ok k -> own_force d k = forced_shape d a.
  Proof.
    intros HK. apply C129_accepts in HK. destruct HK as (f & rc & n & _ & _ & _ & _ & _ & _ & _ & _ & _ & _ & _ & _ & _ & _ & EB & ES & _).
    destruct d; cbn [own_force forced_shape own_args a_force_beta a_force_sigma] in *; congruence.
  Qed.
  Lemma keeps_shape d k p name o : complete_guess ls -> estimate ls minimize d (i_method k) (own_force d k) (i_optimizer k) (i_failures k) (i_right_censored k) = Ok (p, name, o) ->
    forall s, own_force d k = Some s -> nth 1 p 0 = s.
  Proof.
    intros (_ & HG) HE s Hs. assert (d = D_Weibull_2P \/ d = D_Normal_2P \/ d = D_Lognormal_2P) as HD by (apply (own_force_plain d k); congruence). unfold estimate in HE. apply bind_ok in HE. destruct HE as ((m, g) & HL & HE). destruct (i_method k) as [me|]; [|discriminate HE]. cbn [fst snd] in HE.
    destruct (String.eqb me "MLE").
    - rewrite Hs in HE. unfold MLE_estimate in HE. apply bind_ok in HE. destruct HE as (q & HQ & HE). apply bind_ok in HQ. destruct HQ as (q' & _ & HQ).
      assert (fst q = [nth 0 (fst q') 0; s]) as E by (assert (forall (u v : list R * option string), Ok u = Ok v -> u = v) as I by congruence; apply I in HQ; rewrite <- HQ; reflexivity).
      assert (fst q = p) as <- by congruence. rewrite E. reflexivity.
    - assert (g = p) as <- by congruence. clear HE. rewrite Hs in HL.
      assert (nonlinear d = false) as EN by (destruct (own_force_plain d k ltac:(congruence)) as [-> |[-> | ->]]; reflexivity).
      unfold LS_optimization in HL. destruct (LS_method d (Some me)) as [m'|]; [|discriminate HL]. destruct (negb _); [discriminate HL|]. rewrite EN in HL.
      destruct (String.eqb m' "RRX"); [apply bind_ok in HL; destruct HL as (g' & HL & HE); assert (g' = g) as <- by congruence; exact (HG _ _ _ _ _ _ HD HL)|].
      destruct (String.eqb m' "RRY"); [apply bind_ok in HL; destruct HL as (g' & HL & HE); assert (g' = g) as <- by congruence; exact (HG _ _ _ _ _ _ HD HL)|].
      apply bind_ok in HL. destruct HL as (gx & HX & HL). apply bind_ok in HL. destruct HL as (gy & HY & HL).
      assert (snd (LS_choice (objective d (Some s) (i_failures k) (i_right_censored k)) gx gy) = g) as <- by congruence.
      unfold LS_choice. destruct (Rlt_dec _ _); [exact (HG _ _ _ _ _ _ HD HX)|exact (HG _ _ _ _ _ _ HD HY)].
  Qed.
  (** The minus log-likelihood behind the goodness of fit. *)
  Lemma gof_is d a r : complete_guess ls -> single d -> fit d a = Ok r ->
    f_gof r = goodness (Z.of_nat (length (f_failures r) + length (f_right_censored r))) (Z.of_nat (k_of (model_of d (f_params r)) (forcedb (forced_shape d a))))
      (2 * LL (model_of d (f_params r)) [] (f_failures r) (f_right_censored r)).
  Proof.
    intros HG S H. unfold FullFitModel.fit in H. destruct (smaller d) as [d2|] eqn:ES.
    - apply three_is in H. destruct H as (k & p & name & o & HK & _ & H). assert (forced_shape d a = None) as -> by (destruct d; try discriminate ES; reflexivity).
      destruct H as [(_ & r2 & _ & H)|(_ & rows & _ & H)]; apply assemble_is in H; cbv zeta in H; destruct H as (-> & _ & _ & _ & _ & _ & -> & -> & _ & -> & _); reflexivity.
    - apply plain_is in H. destruct H as (k & p & name & o & rows & HK & HE & _ & H). rewrite <- (forced_is d a k HK).
      pose proof (keeps_shape d k p name o HG HE) as HS. apply assemble_is in H; cbv zeta in H; destruct H as (-> & _ & _ & _ & _ & _ & -> & -> & _ & -> & _).
      rewrite objective_is by exact HS. reflexivity.
  Qed.
  (** The goodness of fit is that of the data under the distribution reported: loglik is the logarithm of the
      likelihood L, AICc and BIC follow from it with n items and k estimated parameters. *)
  Theorem C144_goodness d a r P S : complete_guess ls -> single d -> fit d a = Ok r -> proper d (f_params r) ->
    Forall (inside d (f_params r)) (f_failures r) -> Forall (inside d (f_params r)) (f_right_censored r) ->
    Forall2 (density (f_distribution r)) (f_failures r) P -> Forall2 (survival (f_distribution r)) (f_right_censored r) S ->
    let L := rprod P * rprod S in
    let n := (length (f_failures r) + length (f_right_censored r))%nat in
    let k := estimated d (forcedb (forced_shape d a)) in
    let g := f_gof r in
    loglik g = ln L /\ loglik2 g = - 2 * ln L /\ BIC g = INR k * ln (INR n) - 2 * ln L /\
    ((n > k + 1)%nat -> AICc g = Some (2 * INR k - 2 * ln L + 2 * INR k * (INR k + 1) / (INR n - INR k - 1))) /\
    ((n <= k + 1)%nat -> AICc g = None).
  Proof.
    intros HG S0 H HP HF HC HD HS. cbv zeta. rewrite (gof_is d a r HG S0 H).
    rewrite (C144_distribution d a r S0 H) in HD, HS.
    pose proof (C60_goodness (model_of d (f_params r)) (forcedb (forced_shape d a)) [] (f_failures r) (f_right_censored r) P S (proper_ok d _ S0 HP) (or_introl eq_refl)) as G.
    specialize (G ltac:(eapply Forall_impl; [|exact HF]; intros t; now apply inside_ok) ltac:(eapply Forall_impl; [|exact HC]; intros t; now apply inside_ok)).
    rewrite distribution_is in G by exact S0. specialize (G HD HS). cbv zeta in G. unfold likelihood in G. cbn [length pow plus] in G. rewrite Rmult_1_l in G.
    assert (free_parameters (model_of d (f_params r)) (forcedb (forced_shape d a)) = estimated d (forcedb (forced_shape d a))) as EK.
    { destruct d; destruct S0; cbn [forced_shape forcedb]; first [reflexivity | destruct (a_force_beta a); reflexivity | destruct (a_force_sigma a); reflexivity]. }
    rewrite EK in G. exact G.
  Qed.
  (** Such densities and probabilities exist. *)
  Theorem C144_goodness_exists d a r : single d -> fit d a = Ok r -> proper d (f_params r) ->
    Forall (inside d (f_params r)) (f_failures r) -> Forall (inside d (f_params r)) (f_right_censored r) ->
    (exists P, Forall2 (density (f_distribution r)) (f_failures r) P) /\ (exists S, Forall2 (survival (f_distribution r)) (f_right_censored r) S).
  Proof.
    intros S0 H HP HF HC. rewrite (C144_distribution d a r S0 H). pose proof (distribution_is d (f_params r) S0) as E.
    destruct (C58_likelihood_exists (model_of d (f_params r)) (f_failures r) (proper_ok d _ S0 HP)) as [HA _]; [eapply Forall_impl; [|exact HF]; intros t; now apply inside_ok|].
    destruct (C58_likelihood_exists (model_of d (f_params r)) (f_right_censored r) (proper_ok d _ S0 HP)) as [_ HB]; [eapply Forall_impl; [|exact HC]; intros t; now apply inside_ok|].
    rewrite E in HA, HB. split; [exact HA|exact HB].
  Qed.
  (** AD is the Anderson-Darling statistic of the distribution's CDF at the failures against their plotting
      positions. *)
  Theorem C144_AD d a r : (forall l, Permutation l (sort l)) -> single d -> fit d a = Ok r ->
    exists y, plotting_positions_unsorted None (sort (indexed (all_rows (f_failures r) (f_right_censored r)))) = Ok (f_failures r, y) /\
      anderson_darling (map (cdf (f_distribution r)) (f_failures r)) y = Ok (f_AD r).
  Proof.
    intros HS S H. pose proof (C144_distribution d a r S H) as ED. destruct (fit_is _ _ _ _ _ _ _ _ H) as (k & p & rows & s & name & o & HK & HA). apply assemble_is in HA. cbv zeta in HA.
    destruct HA as (_ & _ & _ & EO & _ & _ & EF & EC & _ & _ & x & y & c & HX & HCD & HA). rewrite EF, EC, EO. exists y.
    destruct (C11_unsorted_positions _ _ _ _ _ _ (HS _) HX) as (Ex & _). subst x. split; [exact HX|].
    unfold CDF in HCD. destruct (array_ok _ _); [|discriminate HCD]. assert (map (cdf (object (model_of d p))) (i_failures k) = c) as -> by congruence. exact HA.
  Qed.
  (** The table of quantiles is that of the distribution and standard errors reported. *)
  Theorem C144_quantiles d a r : single d -> fit d a = Ok r -> exists q, resolve_quantiles (a_quantiles a) = Ok q /\
    quantile_table gj (f_distribution r) (Some (f_cov r)) (snd (a_CI a)) q = Ok (f_quantiles r).
  Proof.
    intros S H. destruct (fit_is _ _ _ _ _ _ _ _ H) as (k & p & rows & s & name & o & HK & HA). apply assemble_is in HA. cbv zeta in HA.
    destruct HA as (_ & _ & -> & -> & _ & _ & _ & _ & HQ & _). unfold fitters_input_checking in HK.
    cbn [own_args a_failures a_right_censored a_method a_optimizer a_CI a_quantiles a_force_beta a_force_sigma a_CI_type] in HK.
    destruct (a_failures a); try discriminate HK. apply bind_ok in HK. destruct HK as (rc & _ & HK). apply bind_ok in HK. destruct HK as (da & _ & HK).
    destruct (match fst (a_CI a) with T_int => true | _ => false end); [discriminate HK|]. destruct (_ || _); [discriminate HK|].
    apply bind_ok in HK. destruct HK as (o1 & _ & HK). apply bind_ok in HK. destruct HK as (o2 & _ & HK). apply bind_ok in HK. destruct HK as (q & HQ2 & HK).
    apply bind_ok in HK. destruct HK as (o3 & _ & HK). apply bind_ok in HK. destruct HK as (o4 & _ & HK). apply bind_ok in HK. destruct HK as (o5 & _ & HK).
    exists q. split; [exact HQ2|]. assert (forall (u v : fit_inputs), Ok u = Ok v -> u = v) as I by congruence. apply I in HK. subst k. exact HQ.
  Qed.
End Oracles.
Print Assumptions C144_distribution.
Print Assumptions C144_data.
Print Assumptions C144_goodness.
Print Assumptions C144_goodness_exists.
Print Assumptions C144_AD.
Print Assumptions C144_quantiles.
