(** Proofs about the fitters of a single distribution. *)
From Coquelicot Require Import Coquelicot.
From Coq Require Import String.
From Coq Require Import List Arith ZArith Reals Lra Lia Bool FunctionalExtensionality.
From Verif Require Import Base RealFacts Ext Gauss RList ConvertModel DistModel NonparModel CIModel SelModel SelSpec SelProofs InputModel FitModel FitSpec FitProofs RegModel RegProofs FArgModel PlotModel GroupModel FullFitModel FullFitSpec.
Import ListNotations.
Open Scope R_scope.

(** The list model agrees with the tables of the specification. *)
Lemma object_is d p : single d -> object (model_of d p) = with_params d p.
Proof. destruct d; intros []; reflexivity. Qed.
Lemma distribution_is d p : single d -> distribution (model_of d p) = Single (with_params d p).
Proof. destruct d; intros []; reflexivity. Qed.
Lemma proper_ok d p : single d -> proper d p -> params_ok (model_of d p).
Proof. destruct d; intros []; cbn [proper params_ok model_of location]; unfold proper; cbn [location]; intuition lra. Qed.
Lemma inside_ok d p t : single d -> proper d p -> inside d p t -> support (model_of d p) t.
Proof. destruct d; intros [] _; cbn; intuition lra. Qed.
Lemma not_inflated d p : ~ zero_inflated (model_of d p).
Proof. destruct d; intros []. Qed.
Lemma k_is d p force : single d -> (force <> None -> d = D_Weibull_2P \/ d = D_Normal_2P \/ d = D_Lognormal_2P) ->
  k_of (model_of d p) (forcedb force) = estimated d (forcedb force).
Proof.
  intros S HF. destruct force as [s|].
  - destruct (HF ltac:(discriminate)) as [-> |[-> | ->]]; reflexivity.
  - destruct d; destruct S; reflexivity.
Qed.
(** A forced shape is the second parameter. *)
Lemma objective_is d force F C p : (forall s, force = Some s -> nth 1 p 0 = s) -> objective d force F C p = LL (model_of d p) [] F C.
Proof.
  intros H. destruct force as [s|]; [|reflexivity]. specialize (H s eq_refl). destruct d; try reflexivity; cbn [objective model_of]; rewrite H;
    unfold Weibull_2P_LL_fb, Normal_2P_LL_fs, Lognormal_2P_LL_fs, LL; cbn [log0 length]; f_equal; ring.
Qed.
(** Shifting the data is holding the location. *)
Lemma shift_LL d d2 q g F C : smaller d = Some d2 ->
  LL (model_of d2 q) [] (shifted g F) (shifted g C) = LL (model_of d [nth 0 q 0; nth 1 q 0; g]) [] F C.
Proof.
  intros H. unfold LL, shifted. rewrite !map_map. destruct d; try discriminate H; assert (forall A (a b : A), Some a = Some b -> a = b) as I by congruence; apply I in H; subst d2; reflexivity.
Qed.
Lemma shift_LL_exp q g F C : LL (model_of D_Exponential_1P q) [] (shifted g F) (shifted g C) = LL (model_of D_Exponential_2P [nth 0 q 0; g]) [] F C.
Proof. unfold LL, shifted. rewrite !map_map. reflexivity. Qed.

(** What holds of the start and survives every run of an optimizer holds of the answer. *)
Lemma rerun_inv {P} (m : P -> bool * P) (Q : P -> Prop) : (forall g, Q g -> Q (snd (m g))) -> forall n g, Q g -> Q (snd (rerun m n g)).
Proof.
  intros H. induction n as [|n IH]; intros g Hg; [exact Hg|]. cbn [rerun]. destruct n as [|n]; [now apply H|]. apply IH. now apply H.
Qed.
Section Oracles.
  Context (ls : dname -> option rr -> option R -> list R -> list R -> result (list R))
          (minimize : list (option R * option R) -> opt -> (list R -> R) -> list R -> bool * list R)
          (inv : (list R -> R) -> list R -> option (nat -> nat -> R))
          (sort : list (nat * NonparModel.row) -> list (nat * NonparModel.row))
          (gj : gamma_jac).
  Lemma maximise_inv b f optimizer guess x o (Q : list R -> Prop) : (forall m g, Q g -> Q (snd (minimize b m f g))) ->
    maximise minimize b f optimizer guess = Ok (x, o) -> Q guess -> Q x.
  Proof.
    intros HQ H Hg. unfold maximise in H. apply bind_ok in H. destruct H as (r & H1 & H2). assert (snd r = x) as <- by congruence. clear H2.
    destruct (mle_spec _ _ _ _ _ H1) as (os & _ & [(o' & x' & -> & (a & Ha & _ & _ & Ex) & _)|(-> & _)]); [|exact Hg].
    cbn [snd]. subst x'. destruct (attempts_In _ _ _ _ _ _ Ha) as [_ E]. unfold loglik_optimizer in E.
    destruct (runs_spec _ _ _ _ _ _ _ (eq_sym E)) as (k & _ & H2 & _). unfold a_x. assert (snd (snd a) = snd (rerun (fun g => minimize b (fst a) f g) k guess)) as -> by exact (f_equal snd H2).
    apply rerun_inv; [|exact Hg]. intros g. apply HQ.
  Qed.

  (** What a fitter that returned did. [true]: it fell back on the smaller model. *)
  Lemma assemble_is d force k p rows s name optimizer r :
    assemble sort gj d force k p rows s name optimizer = Ok r ->
    let F := i_failures k in let C := i_right_censored k in
    f_params r = p /\ f_limits r = rows /\ f_cov r = s /\ f_distribution r = object (model_of d p) /\ f_method r = name /\ f_optimizer r = optimizer /\
    f_failures r = F /\ f_right_censored r = C /\
    quantile_table gj (object (model_of d p)) (Some s) (i_CI k) (i_quantiles k) = Ok (f_quantiles r) /\
    f_gof r = goodness (Z.of_nat (length F + length C)) (Z.of_nat (k_of (model_of d p) (forcedb force))) (2 * objective d force F C p) /\
    exists x y c, plotting_positions_unsorted None (sort (indexed (all_rows F C))) = Ok (x, y) /\ CDF (object (model_of d p)) x = Ok c /\ anderson_darling c y = Ok (f_AD r).
  Proof.
    intros H. unfold assemble in H. cbv zeta in H. apply bind_ok in H. destruct H as (q & HQ & H). apply bind_ok in H. destruct H as ((x, y) & HX & H).
    apply bind_ok in H. destruct H as (c & HC & H). apply bind_ok in H. destruct H as (ad & HA & H). cbn [fst snd] in *.
    assert (forall (u v : full), Ok u = Ok v -> u = v) as I by (intros u v E; congruence). apply I in H. subst r. cbn [f_params f_limits f_cov f_distribution f_quantiles f_method f_optimizer f_failures f_right_censored f_gof f_AD].
    do 8 (split; [reflexivity|]). split; [exact HQ|]. split; [reflexivity|]. exists x, y, c. auto.
  Qed.
  Lemma own_force_plain d k : own_force d k <> None -> d = D_Weibull_2P \/ d = D_Normal_2P \/ d = D_Lognormal_2P.
  Proof. destruct d; cbn; try congruence; auto. Qed.
  Lemma plain_is d a r : fit_plain ls minimize inv sort gj d a = Ok r ->
    exists k p name optimizer rows, fitters_input_checking d (own_args d a) = Ok k /\ let F := i_failures k in let C := i_right_censored k in let force := own_force d k in
      estimate ls minimize d (i_method k) force (i_optimizer k) F C = Ok (p, name, optimizer) /\
      fit_limits d (forcedb force) (i_CI k) (with_mu d p) (option_map fst (covariance inv d force F C p)) optimizer = Ok rows /\
      assemble sort gj d force k p rows (stored d (covariance inv d force F C p)) name optimizer = Ok r.
  Proof.
    intros H. unfold fit_plain in H. cbv zeta in H. apply bind_ok in H. destruct H as (k & HK & H). apply bind_ok in H. destruct H as (((p, name), o) & HE & H).
    apply bind_ok in H. destruct H as (rows & HR & H). exists k, p, name, o, rows. auto.
  Qed.
  Lemma three_is d d2 a r : fit_three ls minimize inv sort gj d d2 a = Ok r ->
    exists k p name optimizer, fitters_input_checking d (own_args d a) = Ok k /\ let F := i_failures k in let C := i_right_censored k in
      estimate ls minimize d (i_method k) None (i_optimizer k) F C = Ok (p, name, optimizer) /\
      ((nth 2 p 0 < 1 / 100 /\ exists r2, fit_plain ls minimize inv sort gj d2 (default_args k) = Ok r2 /\
          assemble sort gj d None k (firstn 2 (f_params r2) ++ [0]) (with_zero (f_limits r2)) (f_cov r2) name optimizer = Ok r) \/
       (1 / 100 <= nth 2 p 0 /\ exists rows, fit_limits d false (i_CI k) (with_mu d p) (option_map fst (covariance inv d None F C p)) optimizer = Ok rows /\
          assemble sort gj d None k p rows (stored d (covariance inv d None F C p)) name optimizer = Ok r)).
  Proof.
    intros H. unfold fit_three in H. cbv zeta in H. apply bind_ok in H. destruct H as (k & HK & H). apply bind_ok in H. destruct H as (((p, name), o) & HE & H).
    exists k, p, name, o. split; [exact HK|]. split; [exact HE|]. unfold Rltb' in H. destruct (Rlt_dec (nth 2 p 0) (1 / 100)) as [L|L].
    - left. split; [exact L|]. apply bind_ok in H. destruct H as (r2 & H2 & H). exists r2. auto.
    - right. split; [lra|]. apply bind_ok in H. destruct H as (rows & HR & H). exists rows. auto.
  Qed.
  (** The common end. *)
  Lemma fit_is d a r : fit ls minimize inv sort gj d a = Ok r ->
    exists k p rows s name optimizer, fitters_input_checking d (own_args d a) = Ok k /\ assemble sort gj d (own_force d k) k p rows s name optimizer = Ok r.
  Proof.
    unfold fit. destruct (smaller d) as [d2|] eqn:E; intros H.
    - apply three_is in H. destruct H as (k & p & name & o & HK & _ & H). assert (own_force d k = None) as EF by (destruct d; try discriminate E; reflexivity). exists k. rewrite EF.
      destruct H as [(_ & r2 & _ & H)|(_ & rows & _ & H)]; do 5 eexists; (split; [exact HK|exact H]).
    - apply plain_is in H. destruct H as (k & p & name & o & rows & HK & _ & _ & H). do 6 eexists. split; [exact HK|exact H].
  Qed.
End Oracles.
