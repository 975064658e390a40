(** Cases for C144, C145 and C146, and where the last two fail. *)
From Coquelicot Require Import Coquelicot.
From Coq Require Import String.
From Coq Require Import List Arith ZArith Reals Lra Lia Bool Permutation FunctionalExtensionality.
From Verif Require Import Base RealFacts Ext Gauss RList ConvertModel DistModel NonparModel NonparProps QQSpec CIModel CISpec CIProofs SelModel SelSpec SelProofs InputModel CombModel CombSpec FitModel FitSpec FitProofs FitProps RegModel RegProofs FArgModel FArgSpec FArgProps PlotModel GroupModel PPlotSpec PPlotProofs PPlotProps FullFitModel FullFitSpec FullFitProofs FullFitProps FullFitProps2 FullFitProps3 FullFitProps4.
Import ListNotations.
Open Scope R_scope.

(** Three failures, fitted by the method m. *)
Definition demo_times : list R := [1 / 4; 1 / 2; 3 / 4].
Definition demo_fit (m : string) : fit_args := mkFit (D_seq demo_times) D_none (Text m) No_text (T_float, 95 / 100) Q_None None None (Text "time").
Definition demo_inputs (d : dname) (m : string) : fit_inputs :=
  mkInputs demo_times [] (Some m) None (95 / 100) Q_None None None match d with D_Beta_2P => None | _ => Some "time"%string end.
Lemma demo_accepted d m : single d -> In m ["MLE"; "LS"; "RRX"; "RRY"]%string -> fitters_input_checking d (own_args d (demo_fit m)) = Ok (demo_inputs d m).
Proof.
  intros S Hm. apply C129_accepts. exists demo_times, [], (match d with D_Exponential_1P => 1 | D_Weibull_3P | D_Gamma_3P | D_Lognormal_3P | D_Loglogistic_3P => 3 | _ => 2 end)%nat.
  assert (Forall (FArgSpec.in_range d) demo_times) as HR by (unfold demo_times; repeat (apply Forall_cons; [right; (split; [lra|intros _; lra])|]); apply Forall_nil).
  assert (sublist_of (keep d) demo_times demo_times) as HK by (unfold demo_times; repeat apply so_keep; try apply so_nil; right; (split; [lra|intros _; lra])).
  assert (NoDup demo_times) as HD by (unfold demo_times; repeat constructor; cbn; intuition lra).
  assert (forall n, (n <= 3)%nat -> distinct n demo_times) as HDi.
  { intros n Hn. apply (distinct_less 3 n demo_times Hn). exists demo_times. split; [exact HD|]. split; [apply incl_refl|reflexivity]. }
  unfold demo_inputs, demo_fit, own_args. cbn [a_failures a_right_censored a_method a_optimizer a_CI a_quantiles a_force_beta a_force_sigma a_CI_type i_failures i_right_censored i_method i_optimizer i_CI i_quantiles i_force_beta i_force_sigma i_CI_type fst snd].
  split; [reflexivity|]. split; [right; split; reflexivity|]. split; [rewrite app_nil_r; exact HR|]. split; [exact HK|]. split; [constructor|].
  split; [destruct d; destruct S; cbn; try reflexivity; (split; [intros [H|H]; congruence|reflexivity])|].
  split; [apply HDi; destruct d; lia|]. split; [discriminate|]. split; [lra|]. split; [reflexivity|].
  split; [exists m; split; [|reflexivity]; repeat (destruct Hm as [<- |Hm]; [cbn; tauto|]); destruct Hm|]. split; [reflexivity|].
  split; [destruct d; try reflexivity; exists "time"%string; (split; [cbn; tauto|reflexivity])|].
  split; [right; repeat split; try discriminate; intros [H|[H|[H|H]]]; discriminate H|].
  split; [destruct d; reflexivity|]. split; [destruct d; reflexivity|]. intros v [H|H]; destruct d; discriminate H.
Qed.
Lemma demo_understood m : In m ["MLE"; "LS"; "RRX"; "RRY"]%string -> understood method_names (Text m) (Some m).
Proof. intros Hm. exists m. split; [|reflexivity]. repeat (destruct Hm as [<- |Hm]; [cbn; tauto|]). destruct Hm. Qed.
Definition unit_inv : (list R -> R) -> list R -> option (nat -> nat -> R) := fun _ _ => Some (fun i j => if (i =? j)%nat then 1 else 0).

(** Routines that give back fixed numbers meet what is assumed of them. *)
Definition fixed_ls (x y g : R) : dname -> option rr -> option R -> list R -> list R -> result (list R) :=
  fun d _ force _ _ => Ok (firstn (n_params d) (match d with
    | D_Exponential_2P => [x; g]
    | D_Weibull_2P | D_Normal_2P | D_Lognormal_2P => [x; match force with Some s => s | None => y end]
    | _ => [x; y; g] end)).
Definition staying : list (option R * option R) -> opt -> (list R -> R) -> list R -> bool * list R := fun _ _ _ g => (true, g).
Lemma staying_ok : keeps_length staying /\ keeps_bounds staying /\ never_worse staying.
Proof. split; [|split]; intros b o f g; [reflexivity|exact (fun H => H)|apply Rle_refl]. Qed.

(** Every fitter returns on the demo data, and all hypotheses of C144 are met. *)
Definition demo_ls := fixed_ls 1 2 (1 / 8).
Lemma demo_guess : complete_guess demo_ls.
Proof.
  split.
  - intros d m force F C g H. apply Ok_inj in H. subst g. destruct d; reflexivity.
  - intros d m s F C g Hd H. apply Ok_inj in H. subst g. destruct Hd as [-> |[-> | ->]]; reflexivity.
Qed.
Lemma demo_ls_total d m force F C : exists g, demo_ls d m force F C = Ok g.
Proof. eexists. reflexivity. Qed.
Lemma unit_total f p : exists m, unit_inv f p = Some m.
Proof. eexists. reflexivity. Qed.
Lemma estimate_kept ls minimize inv sort gj d a r : fit ls minimize inv sort gj d a = Ok r ->
  exists k p name o, fitters_input_checking d (own_args d a) = Ok k /\ f_failures r = i_failures k /\ f_right_censored r = i_right_censored k /\
    estimate ls minimize d (i_method k) (own_force d k) (i_optimizer k) (i_failures k) (i_right_censored k) = Ok (p, name, o) /\
    ((n_params d = 3%nat -> 1 / 100 <= location d p) -> f_params r = p /\ f_method r = name).
Proof.
  intros H. unfold fit in H. destruct (smaller d) as [d2|] eqn:ES.
  - apply three_is in H. destruct H as (k & p & name & o & HK & HE & H). exists k, p, name, o.
    assert (own_force d k = None) as -> by (destruct d; try discriminate ES; reflexivity).
    destruct H as [(HL & r2 & _ & H)|(_ & rows & _ & H)]; apply assemble_is in H; cbv zeta in H; destruct H as (EP & _ & _ & _ & EM & _ & EF & EC & _); (split; [exact HK|]); (split; [exact EF|]); (split; [exact EC|]); (split; [exact HE|]).
    + intros HG. exfalso. destruct d; try discriminate ES; specialize (HG eq_refl); cbn [location] in HG; lra.
    + intros _. auto.
  - apply plain_is in H. destruct H as (k & p & name & o & rows & HK & HE & _ & H). apply assemble_is in H. cbv zeta in H. destruct H as (EP & _ & _ & _ & EM & _ & EF & EC & _). exists k, p, name, o. auto 10.
Qed.
Lemma staying_maximise b f o g x n : maximise staying b f o g = Ok (x, n) -> x = g.
Proof. intros H. refine (maximise_inv staying b f o g x n (fun l => l = g) _ H eq_refl). intros m l E. exact E. Qed.
Example C144_case d m gj : single d -> In m ["MLE"; "LS"; "RRX"; "RRY"]%string ->
  complete_guess demo_ls /\ keeps_length staying /\ keeps_bounds staying /\ PPlotSpec.sorts (isort by_time) /\
  exists r, fit demo_ls staying unit_inv (isort by_time) gj d (demo_fit m) = Ok r /\ proper d (f_params r) /\ (n_params d = 3%nat -> location d (f_params r) = 1 / 8) /\
    Forall (inside d (f_params r)) (f_failures r ++ f_right_censored r) /\ f_failures r = demo_times.
Proof.
  intros S Hm. split; [exact demo_guess|]. split; [apply staying_ok|]. split; [apply staying_ok|]. split; [exact by_time_sorts|].
  destruct (C144_succeeds demo_ls staying unit_inv (isort by_time) gj d (demo_fit m) S demo_ls_total unit_total by_time_sorts) as (r & H); [eexists; now apply demo_accepted|discriminate|reflexivity|].
  exists r. split; [exact H|]. destruct (estimate_kept _ _ _ _ _ _ _ _ H) as (k & p & name & o & HK & EF & EC & HE & HP). rewrite (demo_accepted d m S Hm) in HK. apply Ok_inj in HK. subst k.
  cbn [demo_inputs i_method i_optimizer i_failures i_right_censored] in *.
  assert (own_force d (demo_inputs d m) = None) as EO by (destruct d; reflexivity). rewrite EO in HE.
  assert (p = firstn (n_params d) match d with D_Exponential_2P => [1; 1 / 8] | _ => [1; 2; 1 / 8] end) as Ep.
  { unfold estimate in HE. apply bind_ok in HE. destruct HE as ((n1, g) & HL & HE). cbn [fst snd] in HE. destruct (guess_from _ _ _ _ _ _ _ _ HL) as (q & f & Hg & Hf).
    assert (g = firstn (n_params d) match d with D_Exponential_2P => [1; 1 / 8] | _ => [1; 2; 1 / 8] end) as Eg.
    { apply Ok_inj in Hg. subst g. destruct Hf as [(E1 & E2 & _)|(_ & -> & _)]; destruct d; try discriminate E1; reflexivity. }
    destruct (String.eqb m "MLE"); [|congruence]. apply bind_ok in HE. destruct HE as ((x, ox) & HX & HE). cbn [fst snd] in HE. assert (x = p) as -> by congruence.
    unfold MLE_estimate in HX. destruct (dname_eqb d D_Exponential_2P && Rltb' (nth 0 g 0) 1) eqn:EE; [|apply staying_maximise in HX; congruence].
    exfalso. destruct d; try discriminate EE. subst g. cbn in EE. unfold Rltb' in EE. destruct (Rlt_dec 1 1); [lra|discriminate EE]. }
  destruct HP as [EP _]; [intros E; subst p; destruct d; try discriminate E; cbn; lra|]. rewrite EP, Ep, EF, EC, app_nil_r. unfold demo_times.
  split; [destruct d; destruct S; unfold proper; cbn [n_params firstn nth location]; (split; [|split]); try exact I; lra|]. split; [intros E; destruct d; try discriminate E; reflexivity|]. split; [|reflexivity].
  destruct d; destruct S; cbn [inside location n_params firstn nth]; repeat (apply Forall_cons; [cbn [inside location nth]; try exact I; lra|]); apply Forall_nil.
Qed.

(** ** Where C145 fails *)
Lemma ln10 : 2 < ln 10.
Proof.
  rewrite <- (ln_exp 2). apply ln_increasing; [apply exp_pos|]. replace 2 with (1 + 1) by lra. rewrite exp_plus. pose proof exp_le_3. pose proof (exp_pos 1).
  assert (exp 1 * exp 1 <= 3 * 3) by (apply Rmult_le_compat; lra). lra.
Qed.
(** When the log-likelihoods are positive (times below 1) the initial guess is the less likely of the two
    regressions, and an optimizer that does not get far from it reports less than rank regression. *)
Definition two_ls : dname -> option rr -> option R -> list R -> list R -> result (list R) :=
  fun d m force F C => match m with Some RRY => fixed_ls 10 1 1 d m force F C | _ => fixed_ls 100 1 1 d m force F C end.
Lemma two_guess : complete_guess two_ls.
Proof.
  split; intros d m; [intros force F C g H|intros s F C g Hd H]; unfold two_ls in H; destruct m as [[|]|]; apply Ok_inj in H; subst g; try (destruct d; reflexivity); destruct Hd as [-> |[-> | ->]]; reflexivity.
Qed.
Lemma two_total d m force F C : exists g, two_ls d m force F C = Ok g.
Proof. unfold two_ls. destruct m as [[|]|]; eexists; reflexivity. Qed.
Definition small_fit (m : text) : fit_args := mkFit (D_seq [1 / 100]) D_none m No_text (T_float, 95 / 100) Q_None None None (Text "time").
Lemma small_accepted m : In m ["MLE"; "LS"; "RRX"; "RRY"]%string ->
  fitters_input_checking D_Exponential_1P (own_args D_Exponential_1P (small_fit (Text m))) = Ok (mkInputs [1 / 100] [] (Some m) None (95 / 100) Q_None None None (Some "time"%string)).
Proof.
  intros Hm. apply C129_accepts. exists [1 / 100], [], 1%nat. unfold small_fit, own_args. cbn [a_failures a_right_censored a_method a_optimizer a_CI a_quantiles a_force_beta a_force_sigma a_CI_type i_failures i_right_censored i_method i_optimizer i_CI i_quantiles i_force_beta i_force_sigma i_CI_type fst snd].
  split; [reflexivity|]. split; [right; split; reflexivity|]. split; [apply Forall_cons; [right; split; [lra|intros _; lra]|apply Forall_nil]|]. split; [apply so_keep; [right; split; [lra|intros _; lra]|apply so_nil]|]. split; [constructor|].
  split; [reflexivity|]. split; [exists [1 / 100]; split; [repeat constructor; intros []|split; [apply incl_refl|reflexivity]]|]. split; [discriminate|]. split; [lra|]. split; [reflexivity|].
  split; [apply demo_understood; exact Hm|]. split; [reflexivity|]. split; [exists "time"%string; split; [cbn; tauto|reflexivity]|].
  split; [right; repeat split; try discriminate; intros [H|[H|[H|H]]]; discriminate H|]. split; [reflexivity|]. split; [reflexivity|]. intros v [H|H]; discriminate H.
Qed.
Lemma small_LL l : LL (model_of D_Exponential_1P [l]) [] [1 / 100] [] = - (ln l - l / 100).
Proof. unfold LL. cbn [model_of nth log0 length map logf logR rsum fold_right]. unfold Rdiv. ring. Qed.
Theorem C145_rank_regression_refuted : exists ls minimize inv sort gj d a r x, complete_guess ls /\ never_worse minimize /\ PPlotSpec.sorts sort /\ rank_regression d = true /\
  fit ls minimize inv sort gj d (by_method a (Text "MLE")) = Ok r /\ fit ls minimize inv sort gj d (by_method a (Text "RRX")) = Ok x /\ loglik (f_gof r) < loglik (f_gof x).
Proof.
  set (gj := Build_gamma_jac (fun x => x) (fun x => x) (fun x => x) (fun x => x)).
  assert (forall m, In m ["MLE"; "LS"; "RRX"; "RRY"]%string -> exists r, fit two_ls staying unit_inv (isort by_time) gj D_Exponential_1P (small_fit (Text m)) = Ok r) as HT
    by (intros m Hm; apply C144_succeeds; [exact I|exact two_total|exact unit_total|exact by_time_sorts|eexists; now apply small_accepted|discriminate|reflexivity]).
  destruct (HT "MLE"%string ltac:(cbn; tauto)) as (r & Hr). destruct (HT "RRX"%string ltac:(cbn; tauto)) as (x & Hx).
  exists two_ls, staying, unit_inv, (isort by_time), gj, D_Exponential_1P, (small_fit No_text), r, x. split; [exact two_guess|]. split; [apply staying_ok|]. split; [exact by_time_sorts|]. split; [reflexivity|].
  split; [exact Hr|]. split; [exact Hx|].
  rewrite (gof_is _ _ _ _ _ D_Exponential_1P _ _ two_guess I Hr), (gof_is _ _ _ _ _ D_Exponential_1P _ _ two_guess I Hx). unfold goodness. cbn [loglik].
  destruct (estimate_kept _ _ _ _ _ _ _ _ Hr) as (k & p & name & o & HK & EF & EC & HE & HP). rewrite small_accepted in HK by (cbn; tauto). apply Ok_inj in HK. subst k.
  destruct (estimate_kept _ _ _ _ _ _ _ _ Hx) as (k & p' & name' & o' & HK & EF' & EC' & HE' & HP'). rewrite small_accepted in HK by (cbn; tauto). apply Ok_inj in HK. subst k.
  destruct HP as [-> _]; [discriminate|]. destruct HP' as [-> _]; [discriminate|]. rewrite EF, EC, EF', EC'.
  cbn [i_failures i_right_censored i_method i_optimizer own_force] in *.
  assert (p' = [100]) as ->.
  { unfold estimate in HE'. apply bind_ok in HE'. destruct HE' as ((n1, g) & HL & HE'). unfold LS_optimization in HL. apply Ok_inj in HL. injection HL as <- <-. apply Ok_inj in HE'. cbn [fst snd] in HE'. injection HE' as E _ _. symmetry. exact E. }
  assert (p = [10]) as ->.
  { unfold estimate in HE. apply bind_ok in HE. destruct HE as ((n1, g) & HL & HE). cbn [LS_method] in HL. change (String.eqb "MLE" "MLE") with true in *. cbv iota in HL, HE. unfold LS_optimization in HL.
    apply bind_ok in HL. destruct HL as (gx & HX & HL). apply bind_ok in HL. destruct HL as (gy & HY & HL). apply Ok_inj in HX, HY, HL. cbn [firstn n_params fixed_ls] in HX, HY. subst gx gy.
    apply bind_ok in HE. destruct HE as ((y, oy) & HY & HE). unfold MLE_estimate in HY. cbn [dname_eqb andb fst snd] in HY. apply staying_maximise in HY. cbn [fst snd] in HE. assert (y = p) as -> by (apply Ok_inj in HE; congruence). subst p.
    unfold LS_choice in HL. cbn [objective] in HL. rewrite !small_LL in HL. pose proof ln10 as HLn. assert (ln 100 = 2 * ln 10) as E by (replace 100 with (10 * 10) by lra; rewrite ln_mult by lra; ring). rewrite E in HL.
    rewrite !Ropp_involutive in HL. destruct (Rlt_dec _ _) as [Hlt|Hge]; cbn [fst snd] in HL; [|injection HL as _ <-; reflexivity].
    exfalso. rewrite !Rabs_pos_eq in Hlt by lra. lra. }
  rewrite !small_LL. pose proof ln10 as HLn. assert (ln 100 = 2 * ln 10) as -> by (replace 100 with (10 * 10) by lra; rewrite ln_mult by lra; ring). lra.
Qed.

(** A three-parameter fitter whose search ends at a location below 1/100 is replaced by the two-parameter
    one, however much more likely the least squares fit is. *)
Definition three_ls : dname -> option rr -> option R -> list R -> list R -> result (list R) :=
  fun d m force F C => match d with D_Weibull_3P => Ok [100; 1; 1 / 8] | _ => fixed_ls 1000 1 1 d m force F C end.
Lemma three_guess : complete_guess three_ls.
Proof.
  split; intros d m; [intros force F C g H|intros s F C g Hd H]; [destruct d; apply Ok_inj in H; subst g; reflexivity|destruct Hd as [-> |[-> | ->]]; apply Ok_inj in H; subst g; reflexivity].
Qed.
Lemma three_total d m force F C : exists g, three_ls d m force F C = Ok g.
Proof. destruct d; eexists; reflexivity. Qed.
(** An optimizer that knows one better point. *)
Definition moving : list (option R * option R) -> opt -> (list R -> R) -> list R -> bool * list R :=
  fun _ _ f g => (true, match g with [_; _; _] => if Rle_dec (f [1; 1; 0]) (f g) then [1; 1; 0] else g | _ => g end).
Lemma moving_ok : keeps_length moving /\ never_worse moving.
Proof.
  split; intros b o f g; unfold moving; cbn [snd]; destruct g as [|x [|y [|z [|]]]]; try reflexivity; try apply Rle_refl; destruct (Rle_dec _ _) as [H|H]; try reflexivity; try apply Rle_refl; exact H.
Qed.
Lemma three_LL a g : 0 < a -> 0 <= g < 1 / 4 -> LL (model_of D_Weibull_3P [a; 1; g]) [] demo_times [] = 3 * ln a + (3 / 2 - 3 * g) / a.
Proof.
  intros Ha Hg. unfold LL, demo_times. cbn [model_of nth log0 length map logf logR rsum fold_right]. rewrite !Rpower_1 by (apply Rdiv_lt_0_compat; lra). replace (1 / a) with (/ a) by (field; lra). rewrite ln_Rinv by lra. field. lra.
Qed.
Theorem C145_three_refuted : exists ls minimize inv sort gj a r s, complete_guess ls /\ keeps_length minimize /\ never_worse minimize /\ PPlotSpec.sorts sort /\
  fit ls minimize inv sort gj D_Weibull_3P (by_method a (Text "MLE")) = Ok r /\ fit ls minimize inv sort gj D_Weibull_3P (by_method a (Text "LS")) = Ok s /\ loglik (f_gof r) < loglik (f_gof s).
Proof.
  set (gj := Build_gamma_jac (fun x => x) (fun x => x) (fun x => x) (fun x => x)).
  assert (forall m, In m ["MLE"; "LS"; "RRX"; "RRY"]%string -> exists r, fit three_ls moving unit_inv (isort by_time) gj D_Weibull_3P (demo_fit m) = Ok r) as HT
    by (intros m Hm; apply C144_succeeds; [exact I|exact three_total|exact unit_total|exact by_time_sorts|eexists; apply demo_accepted; [exact I|exact Hm]|discriminate|reflexivity]).
  destruct (HT "MLE"%string ltac:(cbn; tauto)) as (r & Hr). destruct (HT "LS"%string ltac:(cbn; tauto)) as (s & Hs).
  exists three_ls, moving, unit_inv, (isort by_time), gj, (demo_fit ""), r, s. split; [exact three_guess|]. split; [apply moving_ok|]. split; [apply moving_ok|]. split; [exact by_time_sorts|]. split; [exact Hr|]. split; [exact Hs|].
  rewrite (gof_is _ _ _ _ _ D_Weibull_3P _ _ three_guess I Hr), (gof_is _ _ _ _ _ D_Weibull_3P _ _ three_guess I Hs). unfold goodness. cbn [loglik].
  assert (f_params s = [100; 1; 1 / 8] /\ f_failures s = demo_times /\ f_right_censored s = []) as (-> & -> & ->).
  { destruct (estimate_kept _ _ _ _ _ _ _ _ Hs) as (k & p & name & o & HK & EF & EC & HE & HP). rewrite demo_accepted in HK by (cbn; tauto). apply Ok_inj in HK. subst k.
    unfold estimate in HE. apply bind_ok in HE. destruct HE as ((n1, g) & HL & HE). apply Ok_inj in HL. injection HL as <- <-. apply Ok_inj in HE. cbn [fst snd] in HE.
    assert (p = [100; 1; 1 / 8]) as -> by (injection HE as E _ _; symmetry; exact E). destruct HP as [-> _]; [intros _; cbn; lra|]. auto. }
  assert (f_params r = [1000; 1; 0] /\ f_failures r = demo_times /\ f_right_censored r = []) as (-> & -> & ->).
  { unfold fit in Hr. cbn [smaller] in Hr. apply three_is in Hr. destruct Hr as (k & p & name & o & HK & HE & Hr). rewrite demo_accepted in HK by (cbn; tauto). apply Ok_inj in HK. subst k. cbn [demo_inputs i_method i_optimizer i_failures i_right_censored] in *.
    assert (p = [1; 1; 0]) as ->.
    { unfold estimate in HE. apply bind_ok in HE. destruct HE as ((n1, g) & HL & HE). apply Ok_inj in HL. injection HL as <- <-. cbn [fst snd] in HE. change (String.eqb "MLE" "MLE") with true in HE. cbv iota in HE.
      apply bind_ok in HE. destruct HE as ((y, oy) & HY & HE). cbn [fst snd] in HE. assert (y = p) as -> by (apply Ok_inj in HE; congruence). clear HE. unfold MLE_estimate in HY. cbn [dname_eqb andb] in HY.
      set (f := objective D_Weibull_3P None demo_times []) in HY.
      assert (f [1; 1; 0] <= f [100; 1; 1 / 8]) as HF.
      { unfold f. cbn [objective]. rewrite !three_LL by lra. rewrite ln_1. pose proof ln10. assert (ln 100 = 2 * ln 10) as -> by (replace 100 with (10 * 10) by lra; rewrite ln_mult by lra; ring). lra. }
      assert (forall n o g last, (g = [100; 1; 1 / 8] \/ g = [1; 1; 0]) -> fst (fst (mle_runs (fun o g => moving (bounds D_Weibull_3P demo_times []) o f g) f n o g last)) = true /\ snd (mle_runs (fun o g => moving (bounds D_Weibull_3P demo_times []) o f g) f n o g last) = [1; 1; 0]) as HM.
      { assert (forall b o g, (g = [100; 1; 1 / 8] \/ g = [1; 1; 0]) -> moving b o f g = (true, [1; 1; 0])) as H1.
        { intros b o1 g [-> | ->]; unfold moving; destruct (Rle_dec _ _) as [H|H]; try reflexivity; exfalso; apply H; first [exact HF | apply Rle_refl]. }
        induction n as [|n IH]; intros o1 g last Hg; cbn [mle_runs]; rewrite (H1 _ _ g Hg); [split; reflexivity|].
        destruct n as [|n]; [split; reflexivity|]. destruct (Rlt_dec _ _); [apply IH; right; reflexivity|split; reflexivity]. }
      unfold maximise, MLE_optimization in HY. cbn [optimizers_to_try bind attempts] in HY. unfold loglik_optimizer in HY.
      destruct (HM 5%nat TNC [100; 1; 1 / 8] (IZR 1000000) (or_introl eq_refl)) as [H1 H2].
      set (run := mle_runs (fun o g => moving (bounds D_Weibull_3P demo_times []) o f g) f 5 TNC [100; 1; 1 / 8] (IZR 1000000)) in *.
      rewrite H1 in HY. cbn [andb filter] in HY. unfold a_ok in HY. cbn [fst snd] in HY. rewrite H1 in HY. cbn [first_min a_x fst snd bind] in HY. apply Ok_inj in HY. rewrite <- H2. injection HY as E _. symmetry. exact E. }
    destruct Hr as [(_ & r2 & H2 & Hr)|(HL & _)]; [|cbn in HL; lra]. apply assemble_is in Hr. cbv zeta in Hr. destruct Hr as (-> & _ & _ & _ & _ & _ & -> & -> & _).
    assert (f_params r2 = [1000; 1]) as ->; [|repeat split; reflexivity].
    apply plain_is in H2. destruct H2 as (k & p & name2 & o2 & rows & HK & HE2 & _ & H2). apply assemble_is in H2. cbv zeta in H2. destruct H2 as (-> & _).
    pose proof (asked_method D_Weibull_2P _ k "MLE"%string HK ltac:(apply demo_understood; cbn; tauto)) as EM. rewrite EM, (forced_is _ _ _ HK) in HE2. cbn [forced_shape default_args a_force_beta] in HE2.
    unfold estimate in HE2. apply bind_ok in HE2. destruct HE2 as ((n1, g) & HL & HE2). cbn [LS_method] in HL. change (String.eqb "MLE" "MLE") with true in *. cbv iota in HL, HE2. unfold LS_optimization in HL.
    apply bind_ok in HL. destruct HL as (gx & HX & HL). apply bind_ok in HL. destruct HL as (gy & HY & HL). apply Ok_inj in HX, HY, HL. cbn [firstn n_params fixed_ls] in HX, HY. subst gx gy.
    assert (g = [1000; 1]) as -> by (unfold LS_choice in HL; destruct (Rlt_dec _ _); cbn [fst snd] in HL; congruence). cbn [fst snd] in HE2.
    apply bind_ok in HE2. destruct HE2 as ((y, oy) & HY & HE2). cbn [fst snd] in HE2. assert (y = p) as -> by (apply Ok_inj in HE2; congruence). unfold MLE_estimate in HY. cbn [dname_eqb andb] in HY.
    refine (maximise_inv moving _ _ _ _ _ _ (fun l => l = [1000; 1]) _ HY eq_refl). intros m g ->. reflexivity. }
  rewrite !three_LL by lra. pose proof ln10. assert (ln 100 = 2 * ln 10) as -> by (replace 100 with (10 * 10) by lra; rewrite ln_mult by lra; ring).
  assert (ln 1000 = 3 * ln 10) as -> by (replace 1000 with (10 * (10 * 10)) by lra; rewrite !ln_mult by lra; ring). lra.
Qed.

(** ** Where C146 fails: three fitters offer 'RRX' and 'RRY' but never use them *)
Theorem C146_refuted : forall d gj, d = D_Exponential_2P \/ d = D_Gamma_2P \/ d = D_Beta_2P -> forall m, m = "RRX"%string \/ m = "RRY"%string ->
  exists ls r g, fit ls staying unit_inv (isort by_time) gj d (demo_fit m) = Ok r /\ (forall q, ls d (Some q) None (f_failures r) (f_right_censored r) = Ok g) /\ f_params r <> g.
Proof.
  intros d gj Hd m Hm. set (ls := fun (d : dname) (q : option rr) (force : option R) (F C : list R) => match q with Some _ => fixed_ls 2 2 2 d q force F C | None => fixed_ls 1 1 1 d q force F C end).
  assert (In m ["MLE"; "LS"; "RRX"; "RRY"]%string) as HI by (destruct Hm as [-> | ->]; cbn; tauto).
  assert (single d) as S by (destruct Hd as [-> |[-> | ->]]; exact I).
  destruct (C144_succeeds ls staying unit_inv (isort by_time) gj d (demo_fit m) S) as (r & H); [intros d0 m0 f0 F0 C0; destruct m0; eexists; reflexivity|exact unit_total|exact by_time_sorts|eexists; now apply demo_accepted|discriminate|reflexivity|].
  exists ls, r, [2; 2]. split; [exact H|]. split; [intros q; destruct Hd as [-> |[-> | ->]]; reflexivity|].
  destruct (C146_nonlinear ls staying unit_inv (isort by_time) gj d (demo_fit m) r m S) as [HE _]; [destruct Hd as [-> |[-> | ->]]; reflexivity|exact H|intros E; destruct Hd as [-> |[-> | ->]]; discriminate E|apply demo_understood; exact HI|destruct Hm as [-> | ->]; discriminate|].
  assert (f_params r = [1; 1]) as -> by (destruct Hd as [-> |[-> | ->]]; apply Ok_inj in HE; symmetry; exact HE). intros E. injection E as E1 E2. lra.
Qed.
Print Assumptions C145_three_refuted.
Print Assumptions C145_rank_regression_refuted.
Print Assumptions C146_refuted.
