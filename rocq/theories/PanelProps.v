(** Property C164: the descriptive statistics shown by plot() and stats(). *)
From Coquelicot Require Import Coquelicot.
From Coq Require Import ZArith Reals Lra Lia.
From Coq Require Import String.
From Coq Require Import List.
From Verif Require Import Base Ext DistModel DistSpec ExpectSpec DistProps MomentModel MomentSpec MomentProofs MomentProps RoundModel RoundSpec RoundProofs RoundProps PanelModel PanelSpec.
Import ListNotations.
Local Open Scope string_scope.
Local Open Scope list_scope.
Open Scope R_scope.

Lemma number_shows x (is : R -> Prop) missing : is x -> shows (T_number (shown_number 4 x)) is missing.
Proof.
  intros H. destruct (C141_accuracy 4 x) as (v & E & A & B & C). exists x, v. split; [exact H|]. split; [exact E|]. split; [exact A|]. split; [exact B|exact C].
Qed.

Lemma sd_is d s : valid d -> standard_deviation d = Some s -> is_sd d s.
Proof.
  intros V E. assert (exists v, variance d = Some v) as [v Ev].
  { destruct (variance d) as [v|] eqn:Ev; [now exists v|]. destruct (C120_missing d V) as (_ & _ & K & _). apply K in Ev. congruence. }
  destruct (C120_variance d v V Ev) as (m & M & X & P & S). assert (s = sqrt v) as -> by congruence.
  split; [now apply sqrt_lt_R0|]. exists m. split; [now apply C120_mean|]. rewrite pow2_sqrt by lra. exact X.
Qed.

(** The panel of every distribution can be drawn, and each text shows the statistic of its label, or a message where it does not exist. *)
Theorem C164_panel d : valid d -> exists t_mean t_median t_mode t_b5 t_b95 t_sd t_var t_skew t_kurt,
  plot_panel d = Ok [("Mean", t_mean); ("Median", t_median); ("Mode", t_mode); ("5th quantile", t_b5); ("95th quantile", t_b95);
    ("Standard deviation", t_sd); ("Variance", t_var); ("Skewness", t_skew); ("Excess kurtosis", t_kurt)] /\
  shows t_mean (is_mean d) (no_moment d 1) /\ shows t_median (is_median d) False /\
  shows t_mode (is_mode d) (exists a b, d = Beta a b /\ (a <= 1 \/ b <= 1)) /\
  shows t_b5 (is_quantile d (5 / 100)) False /\ shows t_b95 (is_quantile d (95 / 100)) False /\
  shows t_sd (is_sd d) (no_moment d 2) /\ shows t_var (is_variance d) (no_moment d 2) /\
  shows t_skew (is_skewness d) (no_moment d 3) /\ shows t_kurt (is_excess d) (no_moment d 4).
Proof.
  intros V. destruct (C120_missing d V) as (N1 & N2 & N2' & N3 & N4). pose proof (C120_excess d) as EX. destruct (C120_shape d V) as [S3 S4].
  set (mo := match d with Loglogistic _ _ _ => any_text | _ => number_text end).
  set (md := match d with Beta _ _ => any_text | _ => number_text end).
  assert (forall v (is : R -> Prop) (missing : Prop), (v = None -> exists a b g, d = Loglogistic a b g) -> (forall x, v = Some x -> is x) -> (v = None -> missing) ->
            exists t, mo v = Ok t /\ shows t is missing) as MO.
  { intros [x|] is missing HL HS HN.
    - exists (T_number (shown_number 4 x)). split; [unfold mo; destruct d; reflexivity|]. apply number_shows. auto.
    - destruct (HL eq_refl) as (a & b & g & ->). exists T_message. split; [reflexivity|]. cbn. auto. }
  destruct (MO (mean d) (is_mean d) (no_moment d 1)) as (t1 & E1 & H1).
  { destruct d; cbn; try discriminate; eauto. } { intros x E. now apply C120_mean. } { exact N1. }
  destruct (MO (standard_deviation d) (is_sd d) (no_moment d 2)) as (t6 & E6 & H6).
  { destruct d; cbn; try discriminate; eauto. } { intros x E. now apply sd_is. } { intros E. exact (N2 (proj1 N2' E)). }
  destruct (MO (variance d) (is_variance d) (no_moment d 2)) as (t7 & E7 & H7).
  { destruct d; cbn; try discriminate; eauto. } { intros x E. destruct (C120_variance d x V E) as (m & M & X & _). exists m. split; [now apply C120_mean|exact X]. } { exact N2. }
  destruct (MO (skewness d) (is_skewness d) (no_moment d 3)) as (t8 & E8 & H8).
  { destruct d; cbn; try discriminate; eauto. } { intros x E. destruct (S3 x E) as (m & s & M & S & X). exists m, s. split; [now apply C120_mean|]. split; [now apply sd_is|exact X]. } { exact N3. }
  destruct (MO (excess_kurtosis d) (is_excess d) (no_moment d 4)) as (t9 & E9 & H9).
  { destruct d; cbn; try discriminate; eauto. }
  { intros x E. rewrite E in EX. destruct (kurtosis d) as [k|] eqn:K; [|destruct EX]. subst k. destruct (S4 _ eq_refl) as (m & s & M & S & X).
    exists m, s. split; [now apply C120_mean|]. split; [now apply sd_is|exact X]. }
  { intros E. rewrite E in EX. destruct (kurtosis d) eqn:K; [destruct EX|]. exact (N4 eq_refl). }
  assert (exists t, md (mode d) = Ok t /\ shows t (is_mode d) (exists a b, d = Beta a b /\ (a <= 1 \/ b <= 1))) as (t3 & E3 & H3).
  { destruct (mode d) as [m|] eqn:M.
    - exists (T_number (shown_number 4 m)). split; [unfold md; destruct d; reflexivity|]. apply number_shows. exact (C50_mode_maximises_pdf d m V M).
    - destruct (C50_mode_reported d) as [[m Hm]|(a & b & -> & L)]; [congruence|]. exists T_message. split; [reflexivity|]. cbn. eauto. }
  destruct (C120_percentiles d V) as (_ & _ & _ & B5 & B95).
  exists t1, (T_number (shown_number 4 (median d))), t3, (T_number (shown_number 4 (b5 d))), (T_number (shown_number 4 (b95 d))), t6, t7, t8, t9.
  split.
  - unfold plot_panel, panel. fold mo md. rewrite E1, E3, E6, E7, E8, E9. reflexivity.
  - split; [exact H1|]. split; [apply number_shows; exact (C50_median_halves_cdf d V)|]. split; [exact H3|].
    split; [apply number_shows; exact B5|]. split; [apply number_shows; exact B95|]. auto.
Qed.
Print Assumptions C164_panel.

(** stats() prints the statistics that the panel shows: a number where it has a number, in the same rows. *)
Theorem C164_stats d rows : plot_panel d = Ok rows ->
  Forall2 (fun (s : string * option R) (t : string * panel_text) => fst s = fst t /\
     match snd s with Some x => snd t = T_number (shown_number 4 x) | None => snd t = T_message end) (stats d) rows.
Proof.
  set (mo := match d with Loglogistic _ _ _ => any_text | _ => number_text end).
  set (md := match d with Beta _ _ => any_text | _ => number_text end).
  assert (forall v t, mo v = Ok t -> match v with Some x => t = T_number (shown_number 4 x) | None => t = T_message end) as MO
    by (intros [x|] t; unfold mo; destruct d; cbn; intros E; congruence).
  assert (forall v t, md v = Ok t -> match v with Some x => t = T_number (shown_number 4 x) | None => t = T_message end) as MD
    by (intros [x|] t; unfold md; destruct d; cbn; intros E; congruence).
  unfold plot_panel, panel, stats. fold mo md.
  destruct (mo (mean d)) as [t1|] eqn:E1; [|discriminate]. destruct (md (mode d)) as [t3|] eqn:E3; [|discriminate].
  destruct (mo (standard_deviation d)) as [t6|] eqn:E6; [|discriminate]. destruct (mo (variance d)) as [t7|] eqn:E7; [|discriminate].
  destruct (mo (skewness d)) as [t8|] eqn:E8; [|discriminate]. destruct (mo (excess_kurtosis d)) as [t9|] eqn:E9; [|discriminate].
  cbn [bind number_text]. intros E. assert (rows = [("Mean", t1); ("Median", T_number (shown_number 4 (median d))); ("Mode", t3); ("5th quantile", T_number (shown_number 4 (b5 d))); ("95th quantile", T_number (shown_number 4 (b95 d)));
    ("Standard deviation", t6); ("Variance", t7); ("Skewness", t8); ("Excess kurtosis", t9)]) as -> by congruence.
  repeat (constructor; [split; [reflexivity|cbn [fst snd]; first [reflexivity|exact (MO _ _ E1)|exact (MD _ _ E3)|exact (MO _ _ E6)|exact (MO _ _ E7)|exact (MO _ _ E8)|exact (MO _ _ E9)]]|]). constructor.
Qed.
Print Assumptions C164_stats.

(** The panel of a DSZI model can be drawn exactly if its base distribution has all statistics. *)
Theorem C164_dszi_partial base b5 b95 :
  (exists rows, dszi_panel base b5 b95 = Ok rows) <->
  ~ (exists a b g, base = Loglogistic a b g /\ b <= 4) /\ ~ (exists a b, base = Beta a b /\ (a <= 1 \/ b <= 1)).
Proof.
  unfold dszi_panel, panel. split.
  - intros (rows & E). split.
    + intros (a & b & g & -> & L). revert E. cbn. destruct (Rlt_dec 4 b); [lra|]. repeat destruct (Rlt_dec _ b); cbn; discriminate.
    + intros (a & b & -> & L). revert E. cbn. destruct (Rlt_dec 1 a); cbn; [destruct (Rlt_dec 1 b); cbn; [lra|]|]; discriminate.
  - intros [NL NB]. destruct base; cbn; try (eexists; reflexivity).
    + destruct (Rlt_dec 1 alpha) as [A|A]; [destruct (Rlt_dec 1 beta) as [B|B]; [eexists; reflexivity|]|]; exfalso; apply NB; do 2 eexists; (split; [reflexivity|lra]).
    + destruct (Rlt_dec 4 beta) as [B|B]; [|exfalso; apply NL; do 3 eexists; (split; [reflexivity|lra])].
      destruct (Rlt_dec 1 beta); [|lra]. destruct (Rlt_dec 2 beta); [|lra]. destruct (Rlt_dec 3 beta); [|lra]. cbn. eexists; reflexivity.
Qed.
Print Assumptions C164_dszi_partial.

(** For these the call of plot() fails, although plot() of the base distribution does not. *)
Theorem C164_dszi_refuted : (forall a b g b5 b95, b <= 4 -> dszi_panel (Loglogistic a b g) b5 b95 = Err TypeError) /\
  (forall a b b5 b95, a <= 1 \/ b <= 1 -> dszi_panel (Beta a b) b5 b95 = Err TypeError) /\
  (forall d, valid d -> exists rows, plot_panel d = Ok rows).
Proof.
  split; [|split].
  - intros a b g q r L. unfold dszi_panel, panel. cbn. destruct (Rlt_dec 4 b); [lra|]. repeat (destruct (Rlt_dec _ b); cbn; try reflexivity).
  - intros a b q r L. unfold dszi_panel, panel. cbn. destruct (Rlt_dec 1 a); cbn; [destruct (Rlt_dec 1 b); cbn; [lra|reflexivity]|reflexivity].
  - intros d V. destruct (C164_panel d V) as (t1 & t2 & t3 & t4 & t5 & t6 & t7 & t8 & t9 & E & _). eauto.
Qed.
Print Assumptions C164_dszi_refuted.

Example C164_case : valid (Loglogistic 50 (5 / 2) 0) /\ mean (Loglogistic 50 (5 / 2) 0) <> None /\ skewness (Loglogistic 50 (5 / 2) 0) = None.
Proof. cbn. destruct (Rlt_dec 1 (5 / 2)); [|lra]. destruct (Rlt_dec 3 (5 / 2)); [lra|]. repeat split; try lra. discriminate. Qed.
