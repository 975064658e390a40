(** Property C149, continued: when the fitters of combined Weibull models return, and a case. *)
From Coquelicot Require Import Coquelicot.
From Coq Require Import String.
From Coq Require Import List Arith ZArith Reals Lra Lia Bool Permutation Sorted.
From Verif Require Import Base RealFacts Ext Gauss RList ConvertModel DistModel DistSpec NonparModel NonparSpec NonparProofs NonparProps QQSpec CIModel CISpec CIProofs CIProps SelModel SelSpec SelProofs InputModel CombModel CombSpec CombProofs CombProofs3 FitModel FitSpec FitProofs FitProps RegModel RegProofs FArgModel FArgSpec FArgProofs FArgProps PlotModel GroupModel PPlotSpec PPlotProofs PPlotProps FullFitModel FullFitSpec FullFitProofs FullFitProps FullFitProps2 FullFitProps3 FullFitProps5 SpecialModel SpecialSpec SpecialProofs SpecialProps SpecialProps2.
Import ListNotations.
Open Scope R_scope.

Lemma weibull_array a b X : X <> [] -> Forall (Rle 0) X -> array_ok (Weibull a b 0) X = true.
Proof.
  intros HN HX. unfold array_ok. destruct X as [|x X]; [contradiction|]. cbn [is_signed is_beta negb orb]. rewrite andb_true_r. apply forallb_forall. intros t Ht. rewrite Forall_forall in HX.
  specialize (HX t Ht). apply negb_true_iff. unfold Rltb'. destruct (Rlt_dec t 0); [lra|reflexivity].
Qed.
Lemma special_cdf d p X : combined d -> sensible d p -> X <> [] -> Forall (Rle 0) X -> exists c, fitted_CDF (distribution (special_model d p)) X = Ok c /\ length c = length X.
Proof.
  intros HD HS HN HX. assert (HX' : forall x, In x X -> 0 <= x) by (now apply Forall_forall). assert (exists x, In x X /\ 0 <= x) as HE by (destruct X as [|x X]; [contradiction|]; exists x; split; [now left|apply HX'; now left]).
  assert (forall x, In x X -> x < 0 -> False) as HF by (intros x Hx L; specialize (HX' x Hx); lra).
  destruct HD as [-> |[-> |[-> |[-> | ->]]]]; repeat (destruct p as [|? p]; try (exfalso; exact HS)); cbn [sensible] in HS; cbn [special_model nth distribution fitted_CDF].
  - unfold mix_proportions. destruct (Req_EM_T _ _) as [|E]; [|exfalso; apply E; cbn; ring]. cbn [length Nat.eqb bind].
    rewrite mix_combine_ok; [cbn [bind mix_cdf]; eexists; split; [reflexivity|apply map_length]|exact HN|reflexivity|repeat constructor; cbn; lra|now apply nonneg_negatives_first|repeat constructor; exact HE|intros x Hx L; destruct (HF x Hx L)].
  - rewrite cr_combine_ok; [cbn [bind cr_cdf]; eexists; split; [reflexivity|apply map_length]|exact HN|repeat constructor; cbn; lra|now apply nonneg_negatives_first|repeat constructor; exact HE|repeat constructor; right; left; reflexivity|intros x Hx L; destruct (HF x Hx L)].
  - unfold dszi_init. destruct (Rlt_dec _ _); [lra|]. destruct (Rle_dec _ _); [lra|]. destruct (Rlt_dec _ _); [lra|]. destruct (Rlt_dec _ _); [lra|]. destruct (Rle_dec _ _); [lra|]. cbn [bind fst snd].
    unfold dszi_CDF, CDF. rewrite weibull_array by assumption. cbn [bind]. eexists. split; [reflexivity|]. now rewrite !map_length.
  - unfold dszi_init. destruct (Rlt_dec _ _); [lra|]. destruct (Rle_dec _ _); [lra|]. destruct (Rlt_dec _ _); [lra|]. destruct (Rlt_dec _ _); [lra|]. destruct (Rle_dec _ _); [lra|]. cbn [bind fst snd].
    unfold dszi_CDF, CDF. rewrite weibull_array by assumption. cbn [bind]. eexists. split; [reflexivity|]. now rewrite !map_length.
  - unfold dszi_init. destruct (Rlt_dec _ _); [lra|]. destruct (Rle_dec _ _); [lra|]. destruct (Rlt_dec _ _); [lra|]. destruct (Rlt_dec _ _); [lra|]. destruct (Rle_dec _ _); [lra|]. cbn [bind fst snd].
    unfold dszi_CDF, CDF. rewrite weibull_array by assumption. cbn [bind]. eexists. split; [reflexivity|]. now rewrite !map_length.
Qed.
Lemma zip_length {A B C} (f : A -> B -> C) l m : length l = length m -> length (zip f l m) = length m.
Proof. revert m. induction l as [|x l IH]; intros [|y m] H; try discriminate H; [reflexivity|]. cbn [zip length]. f_equal. apply IH. now injection H. Qed.
Lemma AD_total c y : length c = length y -> exists v, anderson_darling c y = Ok v.
Proof. intros E. unfold anderson_darling. rewrite E, Nat.eqb_refl. cbn [negb]. destruct (existsb _ _); eexists; reflexivity. Qed.

Section Oracles.
  Context (ls : dname -> option rr -> option R -> list R -> list R -> result (list R))
          (minimize : list (option R * option R) -> opt -> (list R -> R) -> list R -> bool * list R)
          (inv : (list R -> R) -> list R -> option (nat -> nat -> R))
          (sort : list (nat * NonparModel.row) -> list (nat * NonparModel.row))
          (gj : gamma_jac) (kde : list R -> R).
  Notation fit_special := (fit_special ls minimize inv sort gj kde).
  Notation weibull_2P := (weibull_2P ls minimize inv sort gj).

  Lemma weibull_total CI o a F C rc : (forall d m force F C, exists g, ls d m force F C = Ok g) -> (forall f p, exists m, inv f p = Some m) -> PPlotSpec.sorts sort ->
    0 < CI < 1 -> o = None \/ understood optimizer_names a o -> (C = D_seq rc \/ (C = D_none /\ rc = [])) -> Forall (Rlt 0) (F ++ rc) -> distinct 2 F -> exists r, weibull_fit ls minimize inv sort gj CI o F C = Ok r.
  Proof.
    intros HT HI HS HC HO HRC HP HD. unfold weibull_fit.
    assert (forall l, Forall (Rlt 0) l -> sublist_of (keep D_Weibull_2P) l l) as HSub by (clear; induction 1 as [|x l H _ IH]; [constructor|apply so_keep; [right; split; [lra|discriminate]|exact IH]]).
    pose proof HP as HP2. apply Forall_app in HP2. destruct HP2 as [HP1 HP2].
    apply (plain_total ls minimize inv sort gj D_Weibull_2P _ (mkInputs F rc (Some "MLE"%string) o CI Q_None None None (Some "time"%string))); try assumption; [exact I| |discriminate|reflexivity].
    apply C129_accepts. exists F, rc, 2%nat.
    cbn [own_args a_failures a_right_censored a_method a_optimizer a_CI a_quantiles a_force_beta a_force_sigma a_CI_type i_failures i_right_censored i_method i_optimizer i_CI i_quantiles i_force_beta i_force_sigma i_CI_type fst snd].
    split; [reflexivity|]. split; [exact HRC|]. split; [eapply Forall_impl; [|exact HP]; intros t Ht; right; split; [lra|discriminate]|]. split; [now apply HSub|]. split; [now apply HSub|].
    split; [cbn; split; [intros [H|H]; congruence|reflexivity]|]. split; [exact HD|]. split; [discriminate|]. split; [exact HC|]. split; [reflexivity|].
    split; [exists "MLE"%string; split; [cbn; tauto|reflexivity]|].
    split. { destruct o as [s|]; [|reflexivity]. destruct HO as [HO|HO]; [discriminate HO|]. destruct a as [|u|]; cbn in HO; [discriminate HO| |destruct HO]. destruct HO as (c & Hi & E). injection E as ->.
      exists c. split; [|reflexivity]. repeat (destruct Hi as [Hi|Hi]; [injection Hi as _ <-; cbn; tauto|]). destruct Hi. }
    split; [exists "time"%string; split; [cbn; tauto|reflexivity]|].
    split; [right; repeat split; try discriminate; intros [H|[H|[H|H]]]; discriminate H|]. split; [reflexivity|]. split; [reflexivity|]. intros v [H|H]; discriminate H.
  Qed.
  Lemma position_total F C : PPlotSpec.sorts sort -> F <> [] -> exists y, plotting_positions_unsorted None (sort (indexed (all_rows F C))) = Ok (F, y) /\ length y = length F.
  Proof.
    intros HS HN. destruct (unsorted_ok None F C _ HN I (HS F C)) as (y & HY). exists y. split; [exact HY|]. destruct (HS F C) as [P _]. now destruct (C11_unsorted_positions _ _ _ _ _ _ P HY) as (_ & HL & _).
  Qed.
  Lemma last_total F C : PPlotSpec.sorts sort -> F <> [] -> exists v, last_position sort F C = Ok v.
  Proof.
    intros HS HN. destruct (position_total F C HS HN) as (y & HY & HL). unfold last_position. rewrite HY. cbn [bind snd]. destruct y as [|y0 y]; [destruct F; [contradiction|discriminate HL]|]. eexists. reflexivity.
  Qed.

  (** With arguments that pass the checks, and two different failures on each side of the dividing line for the
      fitters of two distributions, the fitters return. *)
  Theorem C149_succeeds d a raw k : combined d -> (forall d m force F C, exists g, ls d m force F C = Ok g) -> (forall f p, exists m, inv f p = Some m) ->
    complete_guess ls -> keeps_length minimize -> PPlotSpec.sorts sort -> answers_within minimize -> answers_ordered minimize ->
    (forall CI o F C p, weibull_2P CI o F C p -> Forall (Rlt 0) p) ->
    a_failures a = D_seq raw -> fitters_input_checking d (special_args d a raw) = Ok k ->
    (d = D_Weibull_Mixture \/ d = D_Weibull_CR -> forall F1 F2, let line := group_line (kde (i_failures k)) (i_failures k) in
       sublist_of (fun t => t < line) (i_failures k) F1 -> sublist_of (fun t => ~ t < line) (i_failures k) F2 -> distinct 2 F1 /\ distinct 2 F2) ->
    exists r, fit_special d a = Ok r.
  Proof.
    intros HD HT HI HG HL HS HB HO HW ER HK HGr. unfold SpecialModel.fit_special. rewrite ER, HK. cbn [bind]. cbv zeta.
    set (F := i_failures k) in *. set (C := i_right_censored k) in *. set (zeros := if takes_zeros d then filter is_zero raw else []). set (all := if takes_zeros d then raw else F).
    assert (~ signed d) as NS by (destruct HD as [-> |[-> |[-> |[-> | ->]]]]; intros [E|E]; discriminate E).
    assert (Forall (Rlt 0) (F ++ C)) as HP by (apply Forall_forall; intros t Ht; now apply (kept_positive d _ k t HK NS)).
    pose proof HK as HK2. apply C129_accepts in HK2. destruct HK2 as (f & rc & n & Ef & Erc & HR & Hf & Hrc & HN & HDi & _ & HCI & ECI & _ & HOp & _). cbn [special_args a_failures a_right_censored a_CI a_optimizer a_force_beta a_force_sigma] in *. fold F in Hf, HDi. fold C in Hrc.
    assert (distinct 2 F) as HD2 by (refine (distinct_less n 2 F _ HDi); destruct HD as [-> |[-> |[-> |[-> | ->]]]]; cbn in HN; try lia; destruct HN as [_ HN]; (rewrite HN; [lia|intros [E|E]; congruence])).
    assert (F <> []) as HFn by (pose proof (distinct_length _ _ HD2) as E; intros E2; rewrite E2 in E; cbn in E; lia).
    assert (forall t, FArgSpec.in_range d t -> 0 <= t) as HIR by (intros t [HS'|[Ht _]]; [exfalso; exact (NS HS')|exact Ht]).
    assert (forall t, In t raw -> 0 <= t) as Hraw.
    { intros t Ht. assert (In t f \/ t = 0) as [Hi| ->]; [|apply HIR; rewrite Forall_forall in HR; apply HR, in_or_app; now left|lra]. assert ((if takes_zeros d then filter (fun t => Rneqb t 0) raw else raw) = f) as <- by congruence.
      destruct (takes_zeros d); [|now left]. destruct (Rneqb t 0) eqn:E; [left; apply filter_In; auto|right]. unfold Rneqb in E. destruct (Req_EM_T t 0); [assumption|discriminate E]. }
    assert (forall t, In t F -> In t raw) as Hin.
    { intros t Ht. destruct (sublist_in _ _ _ _ Hf Ht) as [Hi _]. assert ((if takes_zeros d then filter (fun t => Rneqb t 0) raw else raw) = f) as <- by congruence. destruct (takes_zeros d); [apply filter_In in Hi; tauto|exact Hi]. }
    assert (all <> [] /\ Forall (Rle 0) all) as [HAn HAp].
    { unfold all. destruct (takes_zeros d). - split; [|now apply Forall_forall]. destruct F as [|t F0]; [contradiction|]. intros E. specialize (Hin t (or_introl eq_refl)). rewrite E in Hin. destruct Hin.
      - split; [exact HFn|]. apply Forall_app in HP. eapply Forall_impl; [|exact (proj1 HP)]. intros t. cbv beta. lra. }
    assert (length all = (length zeros + length F)%nat) as EL.
    { unfold all, zeros. destruct (takes_zeros d) eqn:ET; [|reflexivity]. apply zeros_length; [now apply (filter_sublist _ is_zero is_zero_iff)|].
      apply (sublist_ext (keep d)); [intros t; now apply keep_combined|]. injection Ef as Ef. subst f. eapply sublist_filter; [exact neqb_iff| |exact Hf]. intros t. now apply keep_combined. }
    assert (exists g, special_guess ls minimize inv sort gj kde d (i_optimizer k) (i_CI k) all zeros F C = Ok g) as (g & HGu).
    { assert (forall l m, Forall (Rlt 0) l -> Forall (Rlt 0) (filter m l)) as HFi by (intros l m H; apply Forall_forall; intros t Ht; apply filter_In in Ht; rewrite Forall_forall in H; now apply H).
      apply Forall_app in HP. destruct HP as [HP1 HP2].
      assert (d = D_Weibull_Mixture \/ d = D_Weibull_CR -> forall o, (o = None \/ understood optimizer_names (a_optimizer a) o) ->
        (exists r, weibull_fit ls minimize inv sort gj (95 / 100) o (group_1 (group_line (kde F) F) F) (D_seq (group_1 (group_line (kde F) F) C)) = Ok r) /\
        (exists r, weibull_fit ls minimize inv sort gj (95 / 100) o (group_2 (group_line (kde F) F) F) (D_seq (group_2 (group_line (kde F) F) C)) = Ok r)) as HTw.
      { intros Hd o Ho. destruct (HGr Hd _ _ (group_1_is _ _) (group_2_is _ _)) as [D1 D2].
        split; (eapply weibull_total; [exact HT|exact HI|exact HS|lra|exact Ho|left; reflexivity|apply Forall_app; split; now apply HFi|assumption]). }
      assert (exists r, weibull_fit ls minimize inv sort gj (95 / 100) (i_optimizer k) F D_none = Ok r) as (r0 & H0).
      { eapply weibull_total; [exact HT|exact HI|exact HS|lra|right; exact HOp|right; split; reflexivity|rewrite app_nil_r; exact HP1|exact HD2]. }
      destruct (last_total all C HS HAn) as (v & Hv). assert (exists r, weibull_fit ls minimize inv sort gj (i_CI k) (i_optimizer k) F (D_seq C) = Ok r) as (r1 & H1).
      { eapply weibull_total; [exact HT|exact HI|exact HS|rewrite ECI; exact HCI|right; exact HOp|left; reflexivity|apply Forall_app; split; assumption|exact HD2]. }
      clear - HD HTw HOp H0 Hv H1. destruct HD as [-> |[-> |[-> |[-> | ->]]]]; cbn [special_guess]; cbv zeta.
      - destruct (HTw ltac:(tauto) _ (or_intror HOp)) as [(x1 & ->) (x2 & ->)]. cbn [bind]. eexists. reflexivity.
      - destruct (HTw ltac:(tauto) None (or_introl eq_refl)) as [(x1 & ->) (x2 & ->)]. cbn [bind]. eexists. reflexivity.
      - rewrite Hv, H0. cbn [bind]. eexists. reflexivity.
      - unfold all in Hv. cbn [takes_zeros] in Hv. rewrite Hv, H0. cbn [bind]. eexists. reflexivity.
      - rewrite H1. cbn [bind]. eexists. reflexivity. }
    rewrite HGu. cbn [bind]. pose proof (guess_sensible ls minimize inv sort gj kde d k zeros all F C g HD HG HL HS HW EL HGu) as Hg.
    destruct (maximise_total minimize (special_bounds d) (fun p => LL (special_model d p) zeros F C) _ g _ HOp) as (x & m & HM). rewrite HM. cbn [bind fst snd].
    assert (sensible d x) as Hx.
    { destruct m as [m|]; [|apply maximise_start in HM; now rewrite HM]. apply maximise_answer in HM. destruct HM as (m' & g' & HM). now apply (answer_sensible d _ m' _ g' _ HD HB HO HM). }
    destruct (HI (fun p => LL (special_model d p) zeros F C) x) as (V & ->). cbn [option_map fit_limits bind].
    destruct (position_total all C HS HAn) as (y & -> & HY). cbn [bind fst snd].
    destruct (special_cdf d x all HD Hx HAn HAp) as (c & -> & Hc). cbn [bind].
    destruct (AD_total c (if takes_zeros d then zeros_at (ZI_of d x) all y else y)) as (v & ->); [|cbn [bind]; eexists; reflexivity].
    rewrite Hc. destruct (takes_zeros d); [|now symmetry]. unfold zeros_at. rewrite zip_length; congruence.
  Qed.
End Oracles.
Print Assumptions C149_data.
Print Assumptions C149_distribution.
Print Assumptions C149_goodness.
Print Assumptions C149_goodness_exists.
Print Assumptions C149_AD.
Print Assumptions C149_rows.
Print Assumptions C149_errors.
Print Assumptions C149_bracket.
Print Assumptions C149_start.
Print Assumptions C149_sensible.
Print Assumptions C149_succeeds.

(** A case: an optimizer that keeps a start within the bounds (and in order) and fails otherwise; three items, one of
    which fails at time zero. Every hypothesis of the theorems above is met. *)
Definition inside_b (b : option R * option R) (x : R) : bool :=
  match fst b with Some l => if Rle_dec l x then true else false | None => true end && match snd b with Some u => if Rle_dec x u then true else false | None => true end.
Fixpoint all_inside (b : list (option R * option R)) (x : list R) : bool :=
  match b, x with [], [] => true | b0 :: b, x0 :: x => inside_b b0 x0 && all_inside b x | _, _ => false end.
Definition cautious : list (option R * option R) -> opt -> (list R -> R) -> list R -> bool * list R :=
  fun b _ _ g => (all_inside b g && (if Rlt_dec (nth 3 g 0) (nth 2 g 0) then true else false), g).
Lemma cautious_ok : keeps_length cautious /\ answers_within cautious /\ answers_ordered cautious /\ never_worse cautious.
Proof.
  split; [intros b o f g; reflexivity|]. split; [|split; [|intros b o f g; apply Rle_refl]].
  - intros b o f g H. cbn [cautious fst snd] in *. apply andb_prop in H. destruct H as [H _]. revert b H. induction g as [|x g IH]; intros [|b0 b] H; try discriminate H; constructor; cbn [all_inside] in H; apply andb_prop in H; destruct H as [H1 H2]; [|now apply IH].
    unfold inside_b in H1. apply andb_prop in H1. destruct H1 as [H1 H3]. split; [destruct (fst b0)|destruct (snd b0)]; try exact I; destruct (Rle_dec _ _); try discriminate; assumption.
  - intros o f g H. cbn [cautious fst snd] in *. apply andb_prop in H. destruct H as [_ H]. destruct (Rlt_dec _ _); [assumption|discriminate H].
Qed.
Lemma cautious_weibull gj CI o F C p : weibull_2P demo_ls cautious unit_inv (isort by_time) gj CI o F C p -> p = [1; 2].
Proof.
  intros (r & H & <-). destruct (estimate_kept _ _ _ _ _ _ _ _ H) as (k & q & name & o' & HK & _ & _ & HE & HP). destruct HP as [-> _]; [cbn; discriminate|].
  assert (own_force D_Weibull_2P k = None) as EF. { apply C129_accepts in HK. destruct HK as (f & rc & n & _ & _ & _ & _ & _ & _ & _ & _ & _ & _ & _ & _ & _ & _ & E & _). cbn in E. exact E. }
  rewrite EF in HE. unfold estimate in HE. apply bind_ok in HE. destruct HE as ((m, g) & HL & HE). destruct (guess_from _ _ _ _ _ _ _ _ HL) as (r' & f & Hg & HF).
  assert (g = [1; 2]) as ->. { destruct HF as [(E & _)|(_ & -> & _)]; [discriminate E|]. apply Ok_inj in Hg. now rewrite <- Hg. }
  cbn [fst snd] in HE. destruct (i_method k) as [me|]; [|discriminate HE]. destruct (String.eqb me "MLE"); [|congruence].
  apply bind_ok in HE. destruct HE as ((x, n) & HM & HE). assert (x = q) as -> by (cbn in HE; congruence). unfold MLE_estimate in HM. cbn [dname_eqb andb] in HM.
  refine (maximise_inv cautious _ _ _ _ _ _ (fun l => l = [1; 2]) _ HM eq_refl). intros m0 g0 H0. exact H0.
Qed.
Definition case_fit : fit_args := mkFit (D_seq [0; 1; 2]) (D_seq [3]) (Text "MLE") No_text (T_float, 95 / 100) Q_None None None (Text "time").
Definition case_inputs : fit_inputs := mkInputs [1; 2] [3] None None (95 / 100) Q_None None None None.
Lemma case_accepted : fitters_input_checking D_Weibull_DSZI (special_args D_Weibull_DSZI case_fit [0; 1; 2]) = Ok case_inputs.
Proof.
  apply C129_accepts. exists [1; 2], [3], 2%nat. unfold special_args, case_inputs, case_fit. cbn [takes_zeros filter].
  assert (forall t, 0 < t -> keep D_Weibull_DSZI t) as HKe by (intros t Ht; right; split; [lra|discriminate]). assert (forall t, 0 < t -> FArgSpec.in_range D_Weibull_DSZI t) as HIn by (intros t Ht; right; split; [lra|discriminate]).
  unfold Rneqb. destruct (Req_EM_T 0 0); [|lra]. destruct (Req_EM_T 1 0); [lra|]. destruct (Req_EM_T 2 0); [lra|]. cbn [negb].
  cbn [a_failures a_right_censored a_method a_optimizer a_CI a_quantiles a_force_beta a_force_sigma a_CI_type i_failures i_right_censored i_method i_optimizer i_CI i_quantiles i_force_beta i_force_sigma i_CI_type fst snd].
  split; [reflexivity|]. split; [left; reflexivity|]. split; [cbn [app]; repeat (apply Forall_cons; [apply HIn; lra|]); apply Forall_nil|].
  split; [repeat (apply so_keep; [apply HKe; lra|]); apply so_nil|]. split; [repeat (apply so_keep; [apply HKe; lra|]); apply so_nil|].
  split; [split; [intros [E|E]; congruence|reflexivity]|]. split; [exists [1; 2]; split; [repeat constructor; cbn; intuition lra|split; [apply incl_refl|reflexivity]]|].
  split; [discriminate|]. split; [lra|]. repeat (split; [reflexivity|]). split; [right; repeat split; try discriminate; intros [E|[E|[E|E]]]; discriminate E|].
  repeat (split; [reflexivity|]). intros v [E|E]; discriminate E.
Qed.
Example C149_case gj kde : combined D_Weibull_DSZI /\ complete_guess demo_ls /\ keeps_length cautious /\ never_worse cautious /\ answers_within cautious /\ answers_ordered cautious /\
  PPlotSpec.sorts (isort by_time) /\ data_of D_Weibull_DSZI case_fit [0] [0; 1; 2] [1; 2] [3] /\
  exists r, fit_special demo_ls cautious unit_inv (isort by_time) gj kde D_Weibull_DSZI case_fit = Ok r /\ sensible D_Weibull_DSZI (s_params r) /\ mass_at_zero D_Weibull_DSZI (s_params r) = 1 / 4.
Proof.
  destruct cautious_ok as (H1 & H2 & H3 & H4). assert (combined D_Weibull_DSZI) as HD by (right; right; left; reflexivity).
  assert (forall CI o F C p, weibull_2P demo_ls cautious unit_inv (isort by_time) gj CI o F C p -> Forall (Rlt 0) p) as HW by (intros CI o F C p H; rewrite (cautious_weibull _ _ _ _ _ _ H); repeat constructor; lra).
  assert (data_of D_Weibull_DSZI case_fit [0] [0; 1; 2] [1; 2] [3]) as HA.
  { exists [0; 1; 2], [3]. split; [reflexivity|]. split; [left; reflexivity|]. split; [apply so_drop; [intros E; apply E; reflexivity|repeat (apply so_keep; [lra|]); apply so_nil]|].
    split; [apply so_keep; [lra|apply so_nil]|]. split; [|intros HN; exfalso; apply HN; left; reflexivity]. intros _. split; [reflexivity|]. apply so_keep; [reflexivity|]. repeat (apply so_drop; [lra|]). apply so_nil. }
  split; [exact HD|]. split; [exact demo_guess|]. split; [exact H1|]. split; [exact H4|]. split; [exact H2|]. split; [exact H3|]. split; [exact by_time_sorts|]. split; [exact HA|].
  destruct (C149_succeeds demo_ls cautious unit_inv (isort by_time) gj kde D_Weibull_DSZI case_fit [0; 1; 2] case_inputs HD demo_ls_total unit_total demo_guess H1 by_time_sorts H2 H3 HW eq_refl case_accepted) as (r & H); [intros [E|E]; discriminate E|].
  exists r. split; [exact H|]. split; [exact (C149_sensible _ _ _ _ _ _ _ _ r HD demo_guess H1 by_time_sorts H2 H3 HW H)|].
  destruct (special_is _ _ _ _ _ _ _ _ r _ _ _ _ HD HA H) as (raw & k & g & _ & _ & _ & _ & _ & _ & HGu & HM & _).
  assert (s_params r = g) as -> by (refine (maximise_inv cautious _ _ _ _ _ _ (fun l => l = g) _ HM eq_refl); intros m0 g0 H0; exact H0).
  cbn [special_guess] in HGu. cbv zeta in HGu. apply bind_ok in HGu. destruct HGu as (ds & _ & HGu). apply bind_ok in HGu. destruct HGu as (r2 & _ & HGu). apply Ok_inj in HGu. subst g. cbn. field.
Qed.
