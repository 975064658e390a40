(** Property C149, continued: where the search starts, what it may end with, and when the fitters return. *)
From Coquelicot Require Import Coquelicot.
From Coq Require Import String.
From Coq Require Import List Arith ZArith Reals Lra Lia Bool Permutation Sorted.
From Verif Require Import Base RealFacts Ext Gauss RList ConvertModel DistModel NonparModel NonparSpec NonparProofs NonparProps QQSpec CIModel CISpec CIProofs CIProps SelModel SelSpec SelProofs InputModel CombModel CombSpec FitModel FitSpec FitProofs FitProps RegModel RegProofs FArgModel FArgSpec FArgProofs FArgProps PlotModel GroupModel PPlotSpec PPlotProofs PPlotProps FullFitModel FullFitSpec FullFitProofs FullFitProps FullFitProps2 FullFitProps3 FullFitProps5 SpecialModel SpecialSpec SpecialProofs SpecialProps.
Import ListNotations.
Open Scope R_scope.

Lemma group_1_is line l : sublist_of (fun t => t < line) l (group_1 line l).
Proof. apply (filter_sublist _ (fun t => Rltb' t line)); [|reflexivity]. intros t. unfold Rltb'. destruct (Rlt_dec t line); split; intros; auto; try discriminate; lra. Qed.
Lemma group_2_is line l : sublist_of (fun t => ~ t < line) l (group_2 line l).
Proof. apply (filter_sublist _ (fun t => negb (Rltb' t line))); [|reflexivity]. intros t. unfold Rltb'. destruct (Rlt_dec t line); split; intros; auto; try discriminate; contradiction. Qed.
Lemma groups_length line l : (length (group_1 line l) + length (group_2 line l) = length l)%nat.
Proof. unfold group_1, group_2. induction l as [|x l IH]; [reflexivity|]. cbn [filter]. destruct (Rltb' x line); cbn [negb length]; lia. Qed.
Lemma kept_length P l m : sublist_of P l m -> (length m <= length l)%nat.
Proof. induction 1; cbn [length]; lia. Qed.
Lemma share m n : (0 < m)%nat -> (m < n)%nat -> 0 < INR m / INR n < 1.
Proof.
  intros H1 H2. apply lt_INR in H1, H2. cbn in H1. split; [apply Rdiv_lt_0_compat; lra|]. apply (Rmult_lt_reg_r (INR n)); [lra|]. unfold Rdiv. rewrite Rmult_assoc, Rinv_l by lra. lra.
Qed.
Lemma distinct_length n l : distinct n l -> (n <= length l)%nat.
Proof. intros (m & H1 & H2 & <-). now apply NoDup_incl_length. Qed.

Lemma answer_sensible d minimize m f g x : combined d -> answers_within minimize -> answers_ordered minimize ->
  minimize (special_bounds d) m f g = (true, x) -> sensible d x.
Proof.
  intros HD HB HO HM. pose proof (HB (special_bounds d) m f g) as HI. rewrite HM in HI. specialize (HI eq_refl). cbn [snd] in HI. pose proof (HO m f g) as HI2.
  destruct HD as [-> |[-> |[-> |[-> | ->]]]]; try (rewrite HM in HI2; specialize (HI2 eq_refl); cbn [snd] in HI2); clear HB HO HM; cbn [special_bounds] in HI;
    repeat match goal with H : Forall2 within (_ :: _) _ |- _ => inversion H; clear H; subst | H : Forall2 within [] _ |- _ => inversion H; clear H; subst end;
    unfold within in *; cbn [fst snd nth sensible] in *; lra.
Qed.

Section Oracles.
  Context (ls : dname -> option rr -> option R -> list R -> list R -> result (list R))
          (minimize : list (option R * option R) -> opt -> (list R -> R) -> list R -> bool * list R)
          (inv : (list R -> R) -> list R -> option (nat -> nat -> R))
          (sort : list (nat * NonparModel.row) -> list (nat * NonparModel.row))
          (gj : gamma_jac) (kde : list R -> R).
  Notation fit_special := (fit_special ls minimize inv sort gj kde).
  Notation fit := (fit ls minimize inv sort gj).

  (** Fit_Weibull_2P with these arguments and the others at their defaults reports the parameters p. *)
  Definition weibull_2P (CI : R) (optimizer : option string) (F : list R) (C : data) (p : list R) : Prop :=
    exists r, fit D_Weibull_2P (mkFit (D_seq F) C (Text "MLE") match optimizer with Some o => Text o | None => No_text end (T_float, CI) Q_None None None (Text "time")) = Ok r /\ f_params r = p.
  (** The largest of the plotting positions of the failures F with the censored times C. *)
  Definition largest_position (F C : list R) (v : R) : Prop :=
    exists y, plotting_positions_unsorted None (sort (indexed (all_rows F C))) = Ok (F, y) /\ In v y /\ Forall (fun u => u <= v) y.

  Lemma two_params CI o F C r : complete_guess ls -> keeps_length minimize -> weibull_fit ls minimize inv sort gj CI o F C = Ok r ->
    weibull_2P CI o F C [nth 0 (f_params r) 0; nth 1 (f_params r) 0] /\ (2 <= length F)%nat.
  Proof.
    intros HG HL H. split.
    - exists r. split; [exact H|]. destruct (C144_rows ls minimize inv sort gj D_Weibull_2P _ r I HG HL H) as [E _]. cbn [n_params] in E.
      destruct (f_params r) as [|x [|y [|? ?]]]; try discriminate E. reflexivity.
    - apply plain_is in H. destruct H as (k & _ & _ & _ & _ & HK & _). apply C129_accepts in HK. destruct HK as (f & rc & n & E1 & _ & _ & Hf & _ & HN & HD & _).
      cbn [own_args a_failures a_force_beta a_force_sigma needed] in *. assert (F = f) as -> by congruence. destruct HN as [_ HN]. rewrite (HN ltac:(intros [E|E]; congruence)) in HD. apply distinct_length in HD. pose proof (kept_length _ _ _ Hf). lia.
  Qed.
  Lemma last_largest F C v : (forall l, Permutation l (sort l)) -> last_position sort F C = Ok v -> largest_position F C v.
  Proof.
    intros HS H. unfold last_position in H. apply bind_ok in H. destruct H as ((x, y) & HX & H). destruct (C11_unsorted_positions _ _ _ _ _ _ (HS _) HX) as (-> & _).
    cbn [snd] in H. exists y. split; [exact HX|]. destruct y as [|y0 yr]; [discriminate H|]. apply Ok_inj in H. subst v. split; [apply fold_max_in|]. apply Forall_forall. apply fold_max_ge.
  Qed.
  Lemma maximise_start b f o g x : maximise minimize b f o g = Ok (x, None) -> x = g.
  Proof.
    intros H. unfold maximise in H. apply bind_ok in H. destruct H as (r & H1 & H2). destruct (mle_spec _ _ _ _ _ H1) as (os & _ & [(o' & x' & -> & _)|(-> & _)]); cbn in H2; [discriminate H2|congruence].
  Qed.
  Lemma maximise_answer b f o g x n : maximise minimize b f o g = Ok (x, Some n) -> exists m g', minimize b m f g' = (true, x).
  Proof.
    intros H. unfold maximise in H. apply bind_ok in H. destruct H as (r & H1 & H2). destruct (mle_spec _ _ _ _ _ H1) as (os & _ & [(o' & x' & -> & (a & Ha & Hok & _ & Ex) & _)|(-> & _)]); cbn in H2; [|discriminate H2].
    apply Ok_inj in H2. assert (x' = x) as -> by congruence. destruct (attempts_In _ _ _ _ _ _ Ha) as [_ E]. unfold loglik_optimizer in E. destruct (runs_spec _ _ _ _ _ _ _ (eq_sym E)) as (k & Hk & H3 & _).
    exists (fst a). unfold a_ok, a_x in *. assert (rerun (fun g => minimize b (fst a) f g) k g = (true, x)) as G by (rewrite <- H3; congruence). clear - G Hk. revert g G. destruct k as [|k]; [lia|]. clear Hk.
    induction k as [|k IH]; intros g G; [exists g; exact G|]. cbn [rerun] in G. exact (IH _ G).
  Qed.

  (** The search starts where [starts_at] says; when no optimizer succeeds the start is what is reported;
      and if no optimizer makes things worse, the reported parameters fit no worse than the start. *)
  Theorem C149_start d a r zeros shown F C : combined d -> complete_guess ls -> keeps_length minimize -> (forall l, Permutation l (sort l)) -> fit_special d a = Ok r -> data_of d a zeros shown F C ->
    exists o g, understood optimizer_names (a_optimizer a) o /\ starts_at d weibull_2P largest_position a o zeros shown F C g /\
      (s_optimizer r = None -> s_params r = g) /\
      (never_worse minimize -> LL (special_model d (s_params r)) zeros F C <= LL (special_model d g) zeros F C).
  Proof.
    intros HD HG HL HP H HA. destruct (special_is _ _ _ _ _ _ d a r zeros shown F C HD HA H) as (raw & k & g & _ & HK & _ & _ & _ & ES & HGu & HM & _). exists (i_optimizer k), g.
    apply C129_accepts in HK. destruct HK as (f & rc & n & _ & _ & _ & _ & _ & _ & _ & _ & _ & ECI & _ & HO & _). cbn [special_args a_CI a_optimizer] in ECI, HO.
    split; [exact HO|]. split; [|split].
    - clear HM. destruct HD as [-> |[-> |[-> |[-> | ->]]]]; cbn [special_guess] in HGu; cbv zeta in HGu; apply bind_ok in HGu; destruct HGu as (r1 & H1 & HGu).
      + apply bind_ok in HGu. destruct HGu as (r2 & H2 & HGu). apply Ok_inj in HGu. subst g. exists (group_line (kde F) F), (group_1 (group_line (kde F) F) F), (group_2 (group_line (kde F) F) F), (group_1 (group_line (kde F) F) C), (group_2 (group_line (kde F) F) C).
        do 4 eexists. split; [apply group_1_is|]. split; [apply group_2_is|]. split; [apply group_1_is|]. split; [apply group_2_is|].
        split; [exact (proj1 (two_params _ _ _ _ _ HG HL H1))|]. split; [exact (proj1 (two_params _ _ _ _ _ HG HL H2))|]. reflexivity.
      + apply bind_ok in HGu. destruct HGu as (r2 & H2 & HGu). apply Ok_inj in HGu. subst g. exists (group_line (kde F) F), (group_1 (group_line (kde F) F) F), (group_2 (group_line (kde F) F) F), (group_1 (group_line (kde F) F) C), (group_2 (group_line (kde F) F) C).
        do 4 eexists. split; [apply group_1_is|]. split; [apply group_2_is|]. split; [apply group_1_is|]. split; [apply group_2_is|].
        split; [exact (proj1 (two_params _ _ _ _ _ HG HL H1))|]. split; [exact (proj1 (two_params _ _ _ _ _ HG HL H2))|]. reflexivity.
      + apply bind_ok in HGu. destruct HGu as (r2 & H2 & HGu). apply Ok_inj in HGu. subst g. exists r1. do 2 eexists. split; [now apply last_largest|]. split; [exact (proj1 (two_params _ _ _ _ _ HG HL H2))|]. reflexivity.
      + apply bind_ok in HGu. destruct HGu as (r2 & H2 & HGu). apply Ok_inj in HGu. cbn [takes_zeros] in ES. subst g shown. exists r1. do 2 eexists. split; [now apply last_largest|]. split; [exact (proj1 (two_params _ _ _ _ _ HG HL H2))|]. reflexivity.
      + apply Ok_inj in HGu. subst g. rewrite ECI in H1. do 2 eexists. split; [exact (proj1 (two_params _ _ _ _ _ HG HL H1))|]. reflexivity.
    - intros E. rewrite E in HM. now apply maximise_start in HM.
    - intros HW. set (f0 := fun p => LL (special_model d p) zeros F C) in *. change (f0 (s_params r) <= f0 g).
      refine (maximise_inv minimize _ _ _ _ _ _ (fun l => f0 l <= f0 g) _ HM _); [intros m0 g0 H0; eapply Rle_trans; [apply HW|exact H0]|apply Rle_refl].
  Qed.

  (** The start is a possible set of parameters, if the two-parameter fits are. *)
  Lemma guess_sensible d k zeros shown F C g : combined d -> complete_guess ls -> keeps_length minimize -> PPlotSpec.sorts sort ->
    (forall CI o F C p, weibull_2P CI o F C p -> Forall (Rlt 0) p) -> length shown = (length zeros + length F)%nat ->
    special_guess ls minimize inv sort gj kde d (i_optimizer k) (i_CI k) shown zeros F C = Ok g -> sensible d g.
  Proof.
    intros HD HG HL HS HW EL H.
    assert (forall CI o F C r, weibull_fit ls minimize inv sort gj CI o F C = Ok r -> 0 < nth 0 (f_params r) 0 /\ 0 < nth 1 (f_params r) 0 /\ (2 <= length F)%nat) as HW2.
    { intros CI o F' C' r' H'. destruct (two_params _ _ _ _ _ HG HL H') as [H2 H3]. apply HW in H2. inversion H2 as [|? ? Hx Hl]; subst. inversion Hl; subst. auto. }
    pose proof (pos_INR (length zeros)) as P0. pose proof (pos_INR (length C)) as P1.
    destruct HD as [-> |[-> |[-> |[-> | ->]]]]; cbn [special_guess] in H; cbv zeta in H; apply bind_ok in H; destruct H as (r1 & H1 & H);
      try (apply bind_ok in H; destruct H as (r2 & H2 & H)); apply Ok_inj in H; subst g; cbn [sensible].
    - destruct (HW2 _ _ _ _ _ H1) as (A1 & B1 & L1). destruct (HW2 _ _ _ _ _ H2) as (A2 & B2 & L2). repeat (split; [assumption|]).
      pose proof (groups_length (group_line (kde F) F) F) as G1. pose proof (groups_length (group_line (kde F) F) C) as G2.
      apply share; lia.
    - destruct (HW2 _ _ _ _ _ H1) as (A1 & B1 & L1). destruct (HW2 _ _ _ _ _ H2) as (A2 & B2 & L2). auto.
    - destruct (HW2 _ _ _ _ _ H2) as (A2 & B2 & L2). destruct (last_position_range _ _ _ _ HS H1) as [[R1 R2] R3]. rewrite EL in R1. rewrite EL. split; [exact A2|]. split; [exact B2|].
      apply le_INR in L2. rewrite !plus_INR in *. cbn [INR] in L2. set (z := INR (length zeros)) in *. set (f := INR (length F)) in *. set (c := INR (length C)) in *.
      split; [apply Rmult_le_pos; [lra|left; apply Rinv_0_lt_compat; lra]|]. split; [|lra]. eapply Rlt_le_trans; [|exact R1].
      apply (Rmult_lt_reg_r ((z + f + c) * (z + f + c + 4 / 10))); [apply Rmult_lt_0_compat; lra|].
      replace (z / (z + f + c) * ((z + f + c) * (z + f + c + 4 / 10))) with (z * (z + f + c + 4 / 10)) by (field; lra).
      replace ((z + f - 3 / 10) / (z + f + c + 4 / 10) * ((z + f + c) * (z + f + c + 4 / 10))) with ((z + f - 3 / 10) * (z + f + c)) by (field; lra).
      assert (0 <= z * f) by (apply Rmult_le_pos; lra). assert (0 <= (f - 17 / 10) * (z + f + c)) by (apply Rmult_le_pos; lra). nra.
    - destruct (HW2 _ _ _ _ _ H2) as (A2 & B2 & L2). destruct (last_position_range _ _ _ _ HS H1) as [[R1 R2] R3]. repeat split; try assumption; lra.
    - destruct (HW2 _ _ _ _ _ H1) as (A2 & B2 & L2). rewrite EL. repeat (split; [assumption|]). apply le_INR in L2. rewrite !plus_INR in *. cbn [INR] in L2.
      split; [apply Rmult_le_pos; [lra|left; apply Rinv_0_lt_compat; lra]|]. apply (Rmult_lt_reg_r (INR (length zeros) + INR (length F) + INR (length C))); [lra|]. unfold Rdiv. rewrite Rmult_assoc, Rinv_l by lra. lra.
  Qed.
  (** What the fitters report is a possible set of parameters, if each answer of an optimizer is within the
      bounds, the part failing at zero smaller than the part that can fail, and the two-parameter fits are
      positive. *)
  Theorem C149_sensible d a r : combined d -> complete_guess ls -> keeps_length minimize -> PPlotSpec.sorts sort -> answers_within minimize -> answers_ordered minimize ->
    (forall CI o F C p, weibull_2P CI o F C p -> Forall (Rlt 0) p) -> fit_special d a = Ok r -> sensible d (s_params r).
  Proof.
    intros HD HG HL HS HB HO HW H. destruct (special_data _ _ _ _ _ _ d a r HD H) as (z & s & F & C & HA & _).
    destruct (special_is _ _ _ _ _ _ d a r z s F C HD HA H) as (raw & k & g & _ & _ & _ & _ & _ & _ & HGu & HM & _).
    pose proof (guess_sensible d k z s F C g HD HG HL HS HW (shown_length d a z s F C HA) HGu) as Hs.
    destruct (s_optimizer r) as [n|]; [|apply maximise_start in HM; now rewrite HM].
    apply maximise_answer in HM. destruct HM as (m & g' & HM). now apply (answer_sensible d _ m _ g' _ HD HB HO HM).
  Qed.

End Oracles.
