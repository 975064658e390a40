(** Property C144, continued: standard errors, and when a fitter returns. *)
From Coquelicot Require Import Coquelicot.
From Coq Require Import String.
From Coq Require Import List Arith ZArith Reals Lra Lia Bool Permutation FunctionalExtensionality.
From Verif Require Import Base RealFacts Ext Gauss RList ConvertModel DistModel NonparModel NonparProps QQSpec CIModel CISpec CIProofs SelModel SelSpec SelProofs InputModel CombModel CombSpec FitModel FitSpec FitProofs FitProps RegModel RegProofs FArgModel FArgSpec FArgProps PlotModel GroupModel PPlotSpec PPlotProofs FullFitModel FullFitSpec FullFitProofs FullFitProps FullFitProps2.
Import ListNotations.
Open Scope R_scope.

Lemma limits_se k Z e s : (k = PFixed -> s = 0) -> p_se (param_limits k Z e s) = s.
Proof. intros H. destruct k; cbn [param_limits]; try reflexivity; [| |]; try (destruct (Req_EM_T e 1); [reflexivity|]); try (destruct (Req_EM_T e 0); reflexivity). cbn. now rewrite H. Qed.
Lemma fixed_variance d forced V W i : single d -> (forced = true -> d = D_Weibull_2P \/ d = D_Normal_2P \/ d = D_Lognormal_2P) -> nth_error (param_kinds d forced) i = Some PFixed -> variance d forced V W i = 0.
Proof.
  intros S HF H. destruct forced.
  - destruct (HF eq_refl) as [-> |[-> | ->]]; destruct i as [|[|[|i]]]; try discriminate H; reflexivity.
  - destruct d; destruct S; do 4 (destruct i as [|i]; [first [discriminate H | reflexivity]|]); destruct i; discriminate H.
Qed.

Section Oracles.
  Context (ls : dname -> option rr -> option R -> list R -> list R -> result (list R))
          (minimize : list (option R * option R) -> opt -> (list R -> R) -> list R -> bool * list R)
          (inv : (list R -> R) -> list R -> option (nat -> nat -> R))
          (sort : list (nat * NonparModel.row) -> list (nat * NonparModel.row))
          (gj : gamma_jac).
  Notation fit := (fit ls minimize inv sort gj).
  Notation fit_plain := (fit_plain ls minimize inv sort gj).

  (** The standard errors come from the inverse of the matrix of second derivatives of the (negative)
      log-likelihood: [V] with the location (or a forced shape) held at its estimate, [W] with all three
      parameters free, [M] with the logarithm of alpha in place of alpha. *)
  Definition second_derivatives (d : dname) (forced : bool) (F C p : list R) (V W M : nat -> nat -> R) : Prop :=
    let L := fun q => LL (model_of d q) [] F C in
    inv (fun q => L (holding d forced p q)) (free_part d forced p) = Some V /\
    (n_params d = 3%nat -> inv L p = Some W) /\
    (with_log_scale d = true -> inv (fun q => L (holding d forced p [exp (nth 0 q 0); nth 1 q 0])) [ln (nth 0 p 0); nth 1 p 0] = Some M).
  Lemma covariance_is d force F C p V W M : single d -> length p = n_params d -> (force <> None -> d = D_Weibull_2P \/ d = D_Normal_2P \/ d = D_Lognormal_2P) ->
    (forall s, force = Some s -> nth 1 p 0 = s) ->
    second_derivatives d (forcedb force) F C p V W M ->
    exists v w, covariance inv d force F C p = Some (v, w) /\ w = stored_cov d (forcedb force) V M /\
      (forall i x, (i < n_params d)%nat -> nth_error v i = Some x -> x = variance d (forcedb force) V W i) /\
      stored d (Some (v, w)) = {| se_a := sqrt (Rabs (if with_log_scale d then M 0%nat 0%nat else V 0%nat 0%nat)); se_b := sqrt (Rabs (variance d (forcedb force) V W 1)); cov_ab := w |}.
  Proof.
    intros S HL HF HS (HV & HW & HM). cbv zeta in HV. destruct force as [s|].
    - specialize (HS s eq_refl). destruct (HF ltac:(discriminate)) as [-> |[-> | ->]]; apply list2 in HL; destruct HL as (x & y & ->); cbn [nth] in HS; subst y;
        cbn [forcedb holding free_part firstn nth] in HV; cbn [covariance smaller firstn];
        (match goal with HV : inv ?g _ = Some V |- context [inv ?f _] => replace f with g end;
         [rewrite HV|apply functional_extensionality; intros q; cbn [objective model_of nth]; unfold Weibull_2P_LL_fb, Normal_2P_LL_fs, Lognormal_2P_LL_fs, LL; cbn [log0 length]; f_equal; ring]);
        exists [V 0%nat 0%nat; 0], 0; (split; [reflexivity|split; [reflexivity|split; [|reflexivity]]]); intros [|[|i]] z Hi Hz; cbn in Hi; try lia; cbn in Hz; injection Hz as <-; reflexivity.
    - clear HF HS. cbn [forcedb] in *.
      destruct d; destruct S; cbn [n_params holding free_part with_log_scale] in *;
        first [apply list3 in HL; destruct HL as (x & y & z & ->); specialize (HW eq_refl) | apply list2 in HL; destruct HL as (x & y & ->) | apply list1 in HL; destruct HL as (x & ->)];
        try specialize (HM eq_refl); cbn [nth firstn] in *; cbn [covariance smaller nth firstn];
        repeat match goal with
        | HV : inv ?g ?q = Some _ |- context [match inv ?f ?q with Some _ => _ | None => _ end] =>
            replace (inv f q) with (inv g q) by (f_equal; apply functional_extensionality; intros t; cbn [model_of nth]; unfold LL, shifted; rewrite ?map_map; reflexivity); rewrite HV
        end;
        (eexists; eexists; split; [reflexivity|split; [reflexivity|split; [|reflexivity]]]);
        intros i u Hi Hu; do 3 (destruct i as [|i]; [first [exfalso; lia | cbn in Hu; injection Hu as <-; reflexivity]|]); exfalso; lia.
  Qed.
  Theorem C144_errors d a r V W M : single d -> complete_guess ls -> keeps_length minimize -> fit d a = Ok r -> (n_params d = 3%nat -> 0 < location d (f_params r)) ->
    let forced := forcedb (forced_shape d a) in
    second_derivatives d forced (f_failures r) (f_right_censored r) (f_params r) V W M ->
    (forall i row, (i < n_params d)%nat -> nth_error (f_limits r) i = Some row -> p_se row = sqrt (Rabs (variance d forced V W i))) /\
    f_cov r = {| se_a := sqrt (Rabs (if with_log_scale d then M 0%nat 0%nat else V 0%nat 0%nat)); se_b := sqrt (Rabs (variance d forced V W 1)); cov_ab := stored_cov d forced V M |}.
  Proof.
    intros S HG HM H H3 forced HD.
    assert (exists k p name o rows, fitters_input_checking d (own_args d a) = Ok k /\ estimate ls minimize d (i_method k) (own_force d k) (i_optimizer k) (i_failures k) (i_right_censored k) = Ok (p, name, o) /\
      fit_limits d (forcedb (own_force d k)) (i_CI k) (with_mu d p) (option_map fst (covariance inv d (own_force d k) (i_failures k) (i_right_censored k) p)) o = Ok rows /\
      f_params r = p /\ f_limits r = rows /\ f_cov r = stored d (covariance inv d (own_force d k) (i_failures k) (i_right_censored k) p) /\ f_failures r = i_failures k /\ f_right_censored r = i_right_censored k)
      as (k & p & name & o & rows & HK & HE & HR & EP & ER & EC & EF & ECe).
    { pose proof (C144_rows ls minimize inv sort gj d a r S HG HM H) as [HLr _]. unfold FullFitModel.fit in H. destruct (smaller d) as [d2|] eqn:ES.
      - apply three_is in H. destruct H as (k & p & name & o & HK & HE & H).
        assert (own_force d k = None) as EO by (destruct d; try discriminate ES; reflexivity).
        assert (n_params d = 3%nat) as EN by (destruct d; try discriminate ES; reflexivity). specialize (H3 EN).
        destruct H as [(_ & r2 & H2 & H)|(HL2 & rows & HR & H)]; apply assemble_is in H; cbv zeta in H; destruct H as (EP & ER & EC & _ & _ & _ & EF & ECe & _).
        + exfalso. assert (location d (f_params r) = 0) as E0; [|lra]. assert (forall q, location d q = nth 2 q 0) as -> by (destruct d; try discriminate ES; reflexivity).
          rewrite EP. destruct (f_params r2) as [|u [|w [|z l]]]; reflexivity.
        + exists k, p, name, o, rows. rewrite EO. repeat split; assumption.
      - apply plain_is in H. destruct H as (k & p & name & o & rows & HK & HE & HR & H). apply assemble_is in H. cbv zeta in H. destruct H as (EP & ER & EC & _ & _ & _ & EF & ECe & _).
        exists k, p, name, o, rows. repeat split; assumption. }
    subst forced. rewrite <- (forced_is d a k HK) in *. rewrite EP, EF, ECe in HD. assert (length p = n_params d) as HL by (eapply estimate_length; eassumption).
    destruct (covariance_is d (own_force d k) _ _ p V W M S HL (own_force_plain d k) (keeps_shape ls minimize d k p name o HG HE) HD) as (v & w & Hc & Hw & Hv & Hs).
    rewrite Hc in *. split.
    - intros i row Hi Hr. rewrite ER in Hr. cbn [option_map fst] in HR. unfold fit_limits in HR. apply Ok_inj in HR. subst rows.
      apply limits_of_nth in Hr. destruct Hr as (kd & e & s & Hk & _ & Hs2 & ->). rewrite nth_error_map in Hs2. destruct (nth_error v i) as [x|] eqn:EX; [|discriminate Hs2]. cbn in Hs2. injection Hs2 as <-.
      rewrite (Hv i x Hi EX). apply limits_se. intros ->. rewrite (fixed_variance d _ V W i S) ; [rewrite Rabs_R0; apply sqrt_0| |exact Hk]. intros E. apply (own_force_plain d k). destruct (own_force d k); [discriminate|discriminate E].
    - rewrite EC, Hs, Hw. reflexivity.
  Qed.

  (** Data that are accepted are fitted: if the least squares routine returns and the matrices can be
      inverted, the fitter returns (a method given, no quantiles asked for). *)
  Lemma maximise_total b f o g o' : understood optimizer_names o o' -> exists x n, maximise minimize b f o' g = Ok (x, n).
  Proof.
    intros Ho. assert (exists os, optimizers_to_try o' = Ok os) as (os & E).
    { destruct o; cbn in Ho; [subst o'; eexists; reflexivity| |destruct Ho]. destruct Ho as (c & Hi & ->).
      repeat (destruct Hi as [Hi|Hi]; [injection Hi as _ <-; eexists; reflexivity|]). destruct Hi. }
    unfold maximise, MLE_optimization. rewrite E. cbn [bind]. destruct (filter _ _); eexists; eexists; reflexivity.
  Qed.
  Lemma estimate_total d k m o : single d -> (forall d m force F C, exists g, ls d m force F C = Ok g) -> understood method_names m (i_method k) -> m <> No_text -> understood optimizer_names o (i_optimizer k) ->
    forall force, exists p name o', estimate ls minimize d (i_method k) force (i_optimizer k) (i_failures k) (i_right_censored k) = Ok (p, name, o').
  Proof.
    intros S HT Hm Hn Ho force. assert (exists c, i_method k = Some c /\ In c ["MLE"; "LS"; "RRX"; "RRY"]%string) as (c & Ec & Hc).
    { destruct m; [contradiction| |destruct Hm]. destruct Hm as (c & Hi & ->). exists c. split; [reflexivity|].
      repeat (destruct Hi as [Hi|Hi]; [injection Hi as _ <-; cbn; tauto|]). destruct Hi. }
    rewrite Ec. set (F := i_failures k). set (C := i_right_censored k).
    assert (exists n g, LS_optimization ls d (LS_method d (Some c)) force F C = Ok (n, g)) as (n & g & HL).
    { assert (exists c', LS_method d (Some c) = Some c' /\ In c' ["LS"; "RRX"; "RRY"]%string) as (c' & -> & Hc').
      { destruct d; destruct S; cbn [LS_method]; eexists; (split; [reflexivity|]); repeat (destruct Hc as [<- |Hc]; [cbn; tauto|]); destruct Hc. }
      unfold LS_optimization. destruct (negb (str_in c' _)) eqn:EB; [exfalso; repeat (destruct Hc' as [<- |Hc']; [discriminate EB|]); destruct Hc'|].
      destruct (HT d None None F C) as (g0 & ->). destruct (HT d (Some RRX) force F C) as (gx & ->). destruct (HT d (Some RRY) force F C) as (gy & ->). cbn [bind].
      destruct (nonlinear d); [eexists; eexists; reflexivity|]. destruct (String.eqb c' "RRX"); [eexists; eexists; reflexivity|]. destruct (String.eqb c' "RRY"); eexists; eexists; reflexivity. }
    unfold estimate. rewrite HL. cbn [bind fst snd]. destruct (String.eqb c "MLE"); [|eexists; eexists; eexists; reflexivity].
    assert (exists x o', MLE_estimate minimize d force (i_optimizer k) F C g = Ok (x, o')) as (x & o' & ->); [|cbn [bind fst snd]; eexists; eexists; eexists; reflexivity].
    assert (forall b f g, exists x n, maximise minimize b f (i_optimizer k) g = Ok (x, n)) as G.
    { intros b f g'. now apply (maximise_total b f o). }
    unfold MLE_estimate. destruct force as [s|].
    - destruct (G (firstn 1 (bounds d F C)) (objective d (Some s) F C) (firstn 1 g)) as (x & n' & ->). cbn [bind fst snd]. eexists; eexists; reflexivity.
    - destruct (_ && _); [|apply G]. destruct (G (bounds d F C) (fun p => Exponential_2P_LL_inv (nth 0 p 0) (nth 1 p 0) F C) [1 / nth 0 g 0; nth 1 g 0]) as (x & n' & ->). cbn [bind fst snd]. eexists; eexists; reflexivity.
  Qed.
  Lemma covariance_total d force F C p : (forall f p, exists m, inv f p = Some m) -> single d -> exists c, covariance inv d force F C p = Some c.
  Proof.
    intros HI S. unfold covariance.
    destruct d; destruct S; cbn [smaller];
      repeat match goal with |- context [match inv ?f ?q with Some _ => _ | None => _ end] => let m := fresh "m" in let E := fresh "E" in destruct (HI f q) as (m & E); rewrite E end;
      try (eexists; reflexivity); destruct force;
      repeat match goal with |- context [match inv ?f ?q with Some _ => _ | None => _ end] => let m := fresh "m" in let E := fresh "E" in destruct (HI f q) as (m & E); rewrite E end; eexists; reflexivity.
  Qed.
  Lemma assemble_total d force k a p rows s name o : single d -> PPlotSpec.sorts sort -> fitters_input_checking d a = Ok k -> i_quantiles k = Q_None -> exists r, assemble sort gj d force k p rows s name o = Ok r.
  Proof.
    intros S HS HK HQ. unfold assemble. rewrite HQ. cbn [quantile_table bind].
    assert (i_failures k <> []) as HN.
    { apply C129_accepts in HK. destruct HK as (f & rc & n & _ & _ & _ & _ & _ & HN & (m & _ & Hm & Hl) & _). intros E. rewrite E in Hm.
      destruct m as [|x m]; [|destruct (Hm x (or_introl eq_refl))]. cbn in Hl. subst n.
      destruct (i_force_beta k); destruct d; destruct S; cbn in HN; try discriminate HN; destruct HN as [H1 H2];
        (assert (~ ~ (a_force_beta a <> None \/ a_force_sigma a <> None)) as G by (intros G; discriminate (H2 G)));
        apply G; intros G2; discriminate (H1 G2). }
    destruct (unsorted_ok None (i_failures k) (i_right_censored k) _ HN I (HS (i_failures k) (i_right_censored k))) as (y & HY). rewrite HY. cbn [bind fst snd].
    assert (array_ok (object (model_of d p)) (i_failures k) = true) as HA.
    { rewrite (object_is d p S). unfold array_ok. destruct (i_failures k) as [|t0 l0] eqn:EF; [contradiction|]. rewrite <- EF. apply andb_true_intro.
      destruct (classic_signed d) as [HD|HD].
      - destruct HD as [-> | ->]; split; reflexivity.
      - assert (forall t, In t (i_failures k) -> 0 < t /\ (d = D_Beta_2P -> t < 1)) as HP by (intros t Ht; apply (kept_positive d a k t HK HD); apply in_or_app; now left).
        split; apply orb_true_iff; [right|]; [|destruct d; try (left; destruct S; reflexivity); right];
          apply forallb_forall; intros t Ht; apply negb_true_iff; unfold Rltb'; destruct (HP t Ht) as [H1 H2]; destruct (Rlt_dec _ _); try reflexivity; try specialize (H2 eq_refl); lra. }
    unfold CDF. rewrite HA. cbn [bind]. unfold anderson_darling.
    assert (length (map (cdf (object (model_of d p))) (i_failures k)) = length y) as EL.
    { rewrite map_length. unfold plotting_positions_unsorted in HY. apply bind_ok in HY. destruct HY as (a0 & _ & HY). apply bind_ok in HY. destruct HY as (y0 & _ & HY). apply Ok_inj in HY.
      injection HY as E1 E2. rewrite <- E1, <- E2, !map_length. reflexivity. }
    rewrite EL, Nat.eqb_refl. cbn [negb]. destruct (existsb _ _); eexists; reflexivity.
  Qed.
  Lemma plain_total d a k : single d -> (forall d m force F C, exists g, ls d m force F C = Ok g) -> (forall f p, exists m, inv f p = Some m) -> PPlotSpec.sorts sort ->
    fitters_input_checking d (own_args d a) = Ok k -> a_method a <> No_text -> i_quantiles k = Q_None -> exists r, fit_plain d a = Ok r.
  Proof.
    intros S HT HI HS HK HM HQ. unfold FullFitModel.fit_plain. rewrite HK. cbn [bind]. pose proof HK as HK'. apply C129_accepts in HK'.
    destruct HK' as (f & rc & n & _ & _ & _ & _ & _ & _ & _ & _ & _ & _ & H1 & H2 & _). cbn [own_args a_method a_optimizer] in H1, H2.
    destruct (estimate_total d k (a_method a) (a_optimizer a) S HT H1 HM H2 (own_force d k)) as (p & name & o & ->). cbn [bind].
    destruct (covariance_total d (own_force d k) (i_failures k) (i_right_censored k) p HI S) as (c & ->). cbn [option_map fit_limits bind].
    eapply assemble_total; eassumption.
  Qed.
  Lemma distinct_less n m l : (m <= n)%nat -> distinct n l -> distinct m l.
  Proof.
    intros H (k & H1 & H2 & H3). exists (firstn m k). split; [|split].
    - rewrite <- (firstn_skipn m k) in H1. revert H1. generalize (firstn m k), (skipn m k). clear. induction l as [|x l IH]; intros l2 H; [constructor|]. inversion H as [|? ? Hx Hl]; subst. constructor; [|now apply (IH l2)]. intros Hi. apply Hx. apply in_or_app. now left.
    - intros x Hx. apply H2. rewrite <- (firstn_skipn m k). apply in_or_app. now left.
    - rewrite firstn_length. lia.
  Qed.
  Theorem C144_succeeds d a : single d -> (forall d m force F C, exists g, ls d m force F C = Ok g) -> (forall f p, exists m, inv f p = Some m) -> PPlotSpec.sorts sort ->
    (exists k, fitters_input_checking d (own_args d a) = Ok k) -> a_method a <> No_text -> a_quantiles a = Q_None -> exists r, fit d a = Ok r.
  Proof.
    intros S HT HI HS (k & HK) HM HQ0. pose proof HK as HK'. apply C129_accepts in HK'.
    destruct HK' as (f & rc & n & _ & _ & HR & Hf & Hrc & Hn & Hd & _ & HCI & ECI & H1 & H2 & _ & HQ & _). cbn [own_args a_method a_optimizer a_quantiles a_CI a_force_beta a_force_sigma] in *.
    assert (i_quantiles k = Q_None) as EQ by (rewrite HQ0 in HQ; destruct HQ as [[[H|[H|[H|H]]] _]|(_ & H & _)]; try discriminate H; exact H).
    unfold FullFitModel.fit. destruct (smaller d) as [d2|] eqn:ES; [|eapply plain_total; eassumption].
    unfold fit_three. rewrite HK. cbn [bind].
    destruct (estimate_total d k (a_method a) (a_optimizer a) S HT H1 HM H2 None) as (p & name & o & ->). cbn [bind].
    destruct (Rltb' (nth 2 p 0) (1 / 100)).
    - assert (single d2) as S2 by (destruct d; try discriminate ES; injection ES as <-; exact I).
      assert (exists k2, fitters_input_checking d2 (own_args d2 (default_args k)) = Ok k2 /\ i_quantiles k2 = Q_None) as (k2 & HK2 & HQ2).
      { exists (mkInputs (i_failures k) (i_right_censored k) (Some "MLE"%string) None (i_CI k) Q_None None None (Some "time"%string)). split; [|reflexivity]. apply C129_accepts.
        exists (i_failures k), (i_right_censored k), 2%nat. unfold default_args.
        assert (Forall (fun t => keep d2 t /\ in_range d2 t) (i_failures k ++ i_right_censored k)) as HA.
        { destruct (checked_kept _ _ _ HK) as [K1 K2]. assert (~ signed d) as NS by (destruct d; try discriminate ES; intros [H|H]; discriminate H).
          apply Forall_forall. intros t Ht. destruct (kept_positive d _ k t HK NS Ht) as [Hp _]. apply Forall_app in HR. split.
          - apply (same_keep d d2 t ES). apply in_app_or in Ht. rewrite Forall_forall in K1, K2. destruct Ht; auto.
          - right. split; [lra|]. intros E. destruct d; try discriminate ES; injection ES as <-; discriminate E. }
        assert (forall l, Forall (fun t => keep d2 t /\ in_range d2 t) l -> sublist_of (keep d2) l l) as HSub by (clear; induction 1 as [|x l [H _] _ IH]; [constructor|now apply so_keep]).
        pose proof HA as HA2. apply Forall_app in HA2. destruct HA2 as [HA1 HA2].
        assert (distinct 2 (i_failures k)) as HD by (refine (distinct_less n 2 _ _ Hd); destruct d; try discriminate ES; cbn in Hn; lia).
        assert (needed d2 (a_force_beta (own_args d2 (default_args k)) <> None \/ a_force_sigma (own_args d2 (default_args k)) <> None) 2) as HN2
          by (destruct d; try discriminate ES; injection ES as <-; cbn; (split; [intros [H|H]; congruence|reflexivity])).
        assert (Forall (in_range d2) (i_failures k ++ i_right_censored k)) as HA3 by (eapply Forall_impl; [|exact HA]; tauto).
        destruct d; try discriminate ES; injection ES as <-; cbn [own_args default_args a_failures a_right_censored a_method a_optimizer a_CI a_quantiles a_force_beta a_force_sigma a_CI_type i_failures i_right_censored i_method i_optimizer i_CI i_quantiles i_force_beta i_force_sigma i_CI_type fst snd] in *;
          rewrite ECI in *; repeat (first [reflexivity | assumption | discriminate | exact (HSub _ HA1) | exact (HSub _ HA2) | split]); try (left; reflexivity);
          try (eexists; split; [|reflexivity]; cbn; tauto); try tauto;
          try (right; repeat split; try discriminate; intros [H|[H|[H|H]]]; discriminate H);
          try (intros v [H|H]; discriminate H). }
      destruct (plain_total d2 (default_args k) k2 S2 HT HI HS HK2 ltac:(discriminate) HQ2) as (r2 & H2r). rewrite H2r. cbn [bind].
      eapply assemble_total; eassumption.
    - destruct (covariance_total d None (i_failures k) (i_right_censored k) p HI S) as (c & ->). cbn [option_map fit_limits bind].
      eapply assemble_total; eassumption.
  Qed.
End Oracles.
Print Assumptions C144_errors.
Print Assumptions C144_succeeds.
