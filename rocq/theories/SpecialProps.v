(** Property C149: what the fitters of combined Weibull models report. *)
From Coquelicot Require Import Coquelicot.
From Coq Require Import String.
From Coq Require Import List Arith ZArith Reals Lra Lia Bool Permutation Sorted.
From Verif Require Import Base RealFacts Ext Gauss RList ConvertModel DistModel NonparModel NonparSpec NonparProps QQSpec CIModel CISpec CIProofs CIProps SelModel SelSpec SelProofs InputModel CombModel CombSpec FitModel FitSpec FitProofs FitProps RegModel RegProofs FArgModel FArgSpec FArgProofs FArgProps PlotModel GroupModel PPlotSpec PPlotProofs FullFitModel FullFitSpec FullFitProofs FullFitProps FullFitProps2 FullFitProps3 SpecialModel SpecialSpec SpecialProofs.
Import ListNotations.
Open Scope R_scope.

Section Oracles.
  (** The least squares routine, scipy's optimizers, the inverse of the matrix of second derivatives,
      pandas' sort, the derivatives of the incomplete gamma function, and the dividing line found from the kernel
      density estimate. *)
  Context (ls : dname -> option rr -> option R -> list R -> list R -> result (list R))
          (minimize : list (option R * option R) -> opt -> (list R -> R) -> list R -> bool * list R)
          (inv : (list R -> R) -> list R -> option (nat -> nat -> R))
          (sort : list (nat * NonparModel.row) -> list (nat * NonparModel.row))
          (gj : gamma_jac) (kde : list R -> R).
  Notation fit_special := (fit_special ls minimize inv sort gj kde).
  Notation fit := (fit ls minimize inv sort gj).

  (** The data are the user's; the zeros are dropped, except that the zero inflated models count the failures
      at zero. *)
  Theorem C149_data d a r : combined d -> fit_special d a = Ok r ->
    exists zeros shown F C, data_of d a zeros shown F C /\ Forall (Rlt 0) F /\ Forall (Rlt 0) C.
  Proof. apply special_data. Qed.
  (** The distribution object has the parameters reported. *)
  Theorem C149_distribution d a r : combined d -> keeps_length minimize -> fit_special d a = Ok r -> combination d (s_params r) = Some (s_distribution r).
  Proof.
    intros HD HL H. pose proof (special_length _ _ _ _ _ _ d a r HD HL H) as HP. rewrite (combination_is d _ HD HP).
    destruct (special_data _ _ _ _ _ _ d a r HD H) as (z & s & F & C & HA & _). destruct (special_is _ _ _ _ _ _ d a r z s F C HD HA H) as (raw & k & g & _ & _ & _ & _ & _ & _ & _ & _ & _ & -> & _). reflexivity.
  Qed.
  (** The goodness of fit is that of the data under that object: loglik is the logarithm of the likelihood L, in which
      each failure at zero counts with the probability of zero, each later failure with its density and each
      censored item with its survival probability; AICc and BIC follow with n items and k parameters. *)
  Theorem C149_goodness d a r zeros shown F C P S : combined d -> fit_special d a = Ok r -> data_of d a zeros shown F C -> sensible d (s_params r) ->
    (zeros = [] \/ 0 < mass_at_zero d (s_params r)) ->
    Forall2 (density_at (s_distribution r)) F P -> Forall2 (survival_at (s_distribution r)) C S ->
    let L := mass_at_zero d (s_params r) ^ length zeros * rprod P * rprod S in
    let n := (length zeros + length F + length C)%nat in
    let k := n_special d in
    let g := s_gof r in
    loglik g = ln L /\ loglik2 g = - 2 * ln L /\ BIC g = INR k * ln (INR n) - 2 * ln L /\
    ((n > k + 1)%nat -> AICc g = Some (2 * INR k - 2 * ln L + 2 * INR k * (INR k + 1) / (INR n - INR k - 1))) /\
    ((n <= k + 1)%nat -> AICc g = None).
  Proof.
    intros HD H HA HS H0 HP HSv. cbv zeta. destruct (special_is _ _ _ _ _ _ d a r zeros shown F C HD HA H) as (raw & k & g & _ & _ & _ & _ & _ & _ & _ & _ & _ & ED & EG & _).
    destruct (data_positive _ _ _ _ _ _ d a r zeros shown F C HD HA H) as [PF PC]. rewrite ED in HP, HSv. rewrite EG, (shown_length d a zeros shown F C HA).
    destruct (sensible_ok d _ HD HS) as (_ & HO & EM & EK & ES & _). rewrite <- EM, <- EK in *.
    apply (C60_goodness (special_model d (s_params r)) false zeros F C P S HO H0); try assumption;
      (eapply Forall_impl; [|eassumption]); intros t Ht; now rewrite ES.
  Qed.
  (** Such densities and probabilities exist. *)
  Theorem C149_goodness_exists d a r zeros shown F C : combined d -> fit_special d a = Ok r -> data_of d a zeros shown F C -> sensible d (s_params r) ->
    (exists P, Forall2 (density_at (s_distribution r)) F P) /\ (exists S, Forall2 (survival_at (s_distribution r)) C S).
  Proof.
    intros HD H HA HS. destruct (special_is _ _ _ _ _ _ d a r zeros shown F C HD HA H) as (raw & k & g & _ & _ & _ & _ & _ & _ & _ & _ & _ & -> & _).
    destruct (data_positive _ _ _ _ _ _ d a r zeros shown F C HD HA H) as [PF PC]. destruct (sensible_ok d _ HD HS) as (_ & HO & _ & _ & ES & _).
    split; [refine (proj1 (C58_likelihood_exists _ F HO _))|refine (proj2 (C58_likelihood_exists _ C HO _))]; (eapply Forall_impl; [|eassumption]); intros t Ht; now rewrite ES.
  Qed.
  (** AD compares the object's CDF at the failures with their plotting positions, in which the positions of the
      failures at zero are replaced by the probability of zero. *)
  Theorem C149_AD d a r zeros shown F C : combined d -> (forall l, Permutation l (sort l)) -> sensible d (s_params r) -> fit_special d a = Ok r -> data_of d a zeros shown F C ->
    exists y c, plotting_positions_unsorted None (sort (indexed (all_rows shown C))) = Ok (shown, y) /\ fitted_CDF (s_distribution r) shown = Ok c /\
      exists y', Forall2 (fun ty v => v = if Req_EM_T (fst ty) 0 then mass_at_zero d (s_params r) else snd ty) (combine shown y) y' /\ length y' = length shown /\
        anderson_darling c y' = Ok (s_AD r).
  Proof.
    intros HD HS HP H HA. destruct (special_is _ _ _ _ _ _ d a r zeros shown F C HD HA H) as (raw & k & g & _ & _ & _ & _ & _ & _ & _ & _ & _ & _ & _ & x & y & c & HX & HC & HAD).
    destruct (C11_unsorted_positions _ _ _ _ _ _ (HS _) HX) as (-> & HL & _). exists y, c. split; [exact HX|]. split; [exact HC|].
    destruct (sensible_ok d _ HD HP) as (_ & _ & _ & _ & _ & _ & EZ).
    destruct (takes_zeros d) eqn:ET.
    - rewrite (EZ eq_refl) in HAD. exists (zeros_at (mass_at_zero d (s_params r)) shown y). split; [|split; [|exact HAD]]; clear - HL; unfold zeros_at; revert y HL.
      + induction shown as [|t l IH]; intros [|v y] HL; try discriminate HL; cbn [zip combine]; constructor; [reflexivity|]. apply IH. now injection HL.
      + induction shown as [|t l IH]; intros [|v y] HL; try discriminate HL; cbn [zip length]; [reflexivity|]. f_equal. apply IH. now injection HL.
    - exists y. split; [|split; [exact HL|exact HAD]]. destruct (data_positive _ _ _ _ _ _ d a r zeros shown F C HD HA H) as [PF _].
      assert (shown = F) as -> by (destruct HA as (? & ? & _ & _ & _ & _ & _ & HN); apply HN; rewrite <- takes_zeros_iff; congruence).
      clear - PF HL. revert y HL. induction PF as [|t l Ht PF IH]; intros [|v y] HL; try discriminate HL; cbn [combine]; constructor; [|apply IH; now injection HL]. cbn [fst snd]. destruct (Req_EM_T t 0); [lra|reflexivity].
  Qed.
  (** The table: one row for each parameter, with the estimate the object has; the standard errors come from the
      inverse of the matrix of second derivatives of the negative log-likelihood, and the limits are those of the
      normal distribution on the scale of the parameter. *)
  Theorem C149_rows d a r : combined d -> keeps_length minimize -> fit_special d a = Ok r ->
    length (s_limits r) = n_special d /\ map p_est (s_limits r) = s_params r.
  Proof.
    intros HD HL H. pose proof (special_length _ _ _ _ _ _ d a r HD HL H) as HP.
    destruct (special_data _ _ _ _ _ _ d a r HD H) as (z & s & F & C & HA & _). destruct (special_is _ _ _ _ _ _ d a r z s F C HD HA H) as (raw & k & g & _ & _ & _ & _ & _ & _ & _ & _ & HR & _).
    unfold fit_limits in HR. destruct (inv _ _) as [m|]; cbn [option_map] in HR.
    - apply Ok_inj in HR. rewrite <- HR. clear HR. destruct HD as [-> |[-> |[-> |[-> | ->]]]]; name_params HP; rewrite HP; cbn [param_kinds special_bounds length seq map limits_of]; rewrite !limits_est; split; reflexivity.
    - destruct (s_optimizer r); [|discriminate HR]. apply Ok_inj in HR. rewrite <- HR, map_length, map_map. cbn [p_est]. rewrite map_id. split; [exact HP|reflexivity].
  Qed.
  Theorem C149_errors d a r zeros shown F C V i row k : combined d -> fit_special d a = Ok r -> data_of d a zeros shown F C -> sensible d (s_params r) ->
    inv (fun q => LL (special_model d q) zeros F C) (s_params r) = Some V -> nth_error (s_limits r) i = Some row -> nth_error (parameter_ranges d) i = Some k ->
    p_se row = sqrt (Rabs (V i i)) /\
    exists l u, p_lower row = Fin l /\ p_upper row = Fin u /\ normal_limits k (Z_of (snd (a_CI a))) (p_est row) (p_se row) l u.
  Proof.
    intros HD H HA HS HV Hi Hk. destruct (special_is _ _ _ _ _ _ d a r zeros shown F C HD HA H) as (raw & k0 & g & _ & HK & _ & _ & _ & _ & _ & _ & HR & _). rewrite HV in HR. cbn [option_map] in HR.
    apply C129_accepts in HK. destruct HK as (f & rc & n & _ & _ & _ & _ & _ & _ & _ & _ & HC & ECI & _). cbn [special_args a_CI] in HC, ECI. rewrite ECI in HR.
    destruct (sensible_ok d _ HD HS) as (_ & _ & _ & _ & _ & HRa & _).
    assert (nth_error (map (fun i => V i i) (seq 0 (length (special_bounds d)))) i = Some (V i i)) as Hv.
    { assert (i < length (special_bounds d))%nat as Hlt by (assert (length (special_bounds d) = length (parameter_ranges d)) as -> by (destruct HD as [-> |[-> |[-> |[-> | ->]]]]; reflexivity); apply nth_error_Some; congruence).
      rewrite nth_error_map. rewrite (nth_error_nth' _ 0%nat) by (now rewrite seq_length). rewrite seq_nth by exact Hlt. reflexivity. }
    pose proof (C66_scales d false (snd (a_CI a)) (s_params r) _ (s_optimizer r) (s_limits r) i row k (V i i) HC HRa HR Hi Hk Hv) as G.
    assert (held_fixed d false i = false) as E by (destruct HD as [-> |[-> |[-> |[-> | ->]]]]; reflexivity). rewrite E in G. exact G.
  Qed.
  Theorem C149_bracket d a r i row : combined d -> keeps_length minimize -> fit_special d a = Ok r -> sensible d (s_params r) ->
    nth_error (s_limits r) i = Some row -> CISpec.brackets row.
  Proof.
    intros HD HL H HS Hi. destruct (special_data _ _ _ _ _ _ d a r HD H) as (z & s & F & C & HA & _). destruct (special_is _ _ _ _ _ _ d a r z s F C HD HA H) as (raw & k0 & g & _ & HK & _ & _ & _ & _ & _ & _ & HR & _).
    apply C129_accepts in HK. destruct HK as (f & rc & n & _ & _ & _ & _ & _ & _ & _ & _ & HC & ECI & _). cbn [special_args a_CI] in HC, ECI. rewrite ECI in HR.
    destruct (sensible_ok d _ HD HS) as (_ & _ & _ & _ & _ & HRa & _).
    assert (exists k, nth_error (parameter_ranges d) i = Some k) as (k & Hk).
    { assert (i < length (parameter_ranges d))%nat as Hlt by (assert (length (parameter_ranges d) = n_special d) as -> by (destruct HD as [-> |[-> |[-> |[-> | ->]]]]; reflexivity); rewrite <- (proj1 (C149_rows d a r HD HL H)); apply nth_error_Some; congruence).
      apply nth_error_Some in Hlt. destruct (nth_error (parameter_ranges d) i) as [k|]; [now exists k|congruence]. }
    exact (proj1 (proj2 (C66_bracket_partial _ _ _ _ _ _ _ _ _ k HC HRa HR Hi Hk))).
  Qed.
End Oracles.
