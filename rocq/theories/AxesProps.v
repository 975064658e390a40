(** Property C138: the axes show what is plotted. *)
From Coquelicot Require Import Coquelicot.
From Coq Require Import String.
From Coq Require Import List Arith Reals Lra Lia Bool Sorting.Sorted.
From Verif Require Import Base RealFacts Ext RList ConvertModel DistModel DistSpec DistProofs DistProofs2 RegProofs QQProofs CombProofs2 SelModel InputModel InputProofs AxesModel AxesSpec AxesProofs.
Import ListNotations.
Open Scope R_scope.

(** A plot shows the x values that belong to it, whatever was on the axes before. *)
Theorem C138_range d f X Y xvals xmin xmax v auto v' x : valid d -> (1 < length X)%nat ->
  draw v auto (mkReq (subject_of d) f X Y xvals xmin xmax) = Ok v' -> belongs d xvals xmin xmax x -> on (v_x v') x.
Proof.
  intros V HX H HB. destruct (draw_inv v auto (mkReq (subject_of d) f X Y xvals xmin xmax) v' HX H) as (own & top & HO & _ & _). cbn [q_subject q_X q_xvals q_xmin q_xmax] in HO.
  pose proof (own_x_dist d X xvals xmin xmax own x V HO HB) as [A B]. destruct (draw_own v auto (mkReq (subject_of d) f X Y xvals xmin xmax) v' own HX H HO) as [C D]. unfold on. lra.
Qed.
Print Assumptions C138_range.

(** On axes that do not look like fresh ones a plot hides nothing in the direction of x, nor below; above only
    when it leaves the top to matplotlib. *)
Theorem C138_keeps_partial v auto q v' : (1 < length (q_X q))%nat -> length (q_Y q) = length (q_X q) -> draw v auto q = Ok v' -> ~ blank v ->
  part_of (v_x v) (v_x v') /\ fst (v_y v') <= fst (v_y v) /\ (snd (v_y v') = snd (v_y auto) \/ part_of (v_y v) (v_y v')).
Proof.
  intros HX HY H HB. destruct (draw_keeps _ _ _ _ HX HY H HB) as (A & B & _ & [E|C]); (split; [exact A|]); (split; [exact B|]); [left; now rewrite E|right; split; assumption].
Qed.
Print Assumptions C138_keeps_partial.

(** Any number of plots one after the other: the last view shows what belongs to each of them, unless
    one of the views on the way looked like fresh axes. *)
Lemma never_keeps v qs v' : never_blank v qs v' -> ~ blank v -> part_of (v_x v) (v_x v').
Proof.
  intros H. induction H as [v|v auto q v1 rest v2 HX HY HD HB HR IH]; intros HN; [unfold part_of; lra|]. destruct (draw_keeps _ _ _ _ HX HY HD HN) as ([A B] & _). destruct (IH HB) as [C D]. unfold part_of. lra.
Qed.
Theorem C138_history_partial v before d f X Y xvals xmin xmax after_ v' x : valid d ->
  never_blank v (before ++ mkReq (subject_of d) f X Y xvals xmin xmax :: after_) v' -> belongs d xvals xmin xmax x -> on (v_x v') x.
Proof.
  intros V H HB. revert v H. induction before as [|q before IH]; intros v H.
  - cbn [app] in H. inversion H as [|? auto q v1 rest v2 HX HY HD HN HR]; subst. cbn [q_X] in HX. pose proof (C138_range _ _ _ _ _ _ _ _ _ _ x V HX HD HB) as [A B]. destruct (never_keeps _ _ _ HR HN) as [C D]. unfold on. lra.
  - cbn [app] in H. inversion H; subst. eapply IH. eassumption.
Qed.
Print Assumptions C138_history_partial.

(** Every point of the curve is on the y axis: probabilities, and densities that are finite at the
    points drawn. *)
Theorem C138_probability d f X ys xvals xmin xmax v auto v' h : f = F_cdf \/ f = F_sf -> (1 < length X)%nat -> length ys = length X ->
  draw v auto (mkReq d f X (map Fin ys) xvals xmin xmax) = Ok v' -> Forall (on (v_y auto)) ys -> In h ys -> 0 <= h <= 1 -> on (v_y v') h.
Proof.
  intros Hf HX HY H HA Hh H01. rewrite Forall_forall in HA. eapply (top_reached v auto (mkReq d f X (map Fin ys) xvals xmin xmax) v' (11 / 10) h HX); [cbn [q_Y q_X]; rewrite map_length; exact HY|exact H| |lra|apply HA; exact Hh].
  cbn [q_subject q_func q_X q_Y]. destruct ys as [|y0 r]; [destruct Hh|]. destruct Hf as [-> | ->]; reflexivity.
Qed.
Print Assumptions C138_probability.
Lemma times_fin c x : times c (Fin x) = Fin (x * c).
Proof. reflexivity. Qed.
Theorem C138_density d X ys xvals xmin xmax v auto v' h : (1 < length X)%nat -> length ys = length X ->
  draw v auto (mkReq d F_pdf X (map Fin ys) xvals xmin xmax) = Ok v' -> Forall (on (v_y auto)) ys -> Forall (fun y => 0 <= y) ys -> In h ys -> on (v_y v') h.
Proof.
  intros HX HY H HA HP Hh. rewrite Forall_forall in HA, HP. assert (exists top, own_y d F_pdf X (map Fin ys) (snd (v_x v')) (snd (match own_x d X xvals xmin xmax with Ok o => o | Err _ => (0, 0) end)) = Ok (Fin top) /\ h <= top) as (top & HT & Hle).
  { destruct ys as [|y0 r]; [destruct Hh|]. unfold own_y. cbn [map]. change (Fin y0 :: map Fin r) with (map Fin (y0 :: r)). rewrite last_fin by discriminate. rewrite emax_fin. cbn [finite negb].
    rewrite andb_false_r. cbn [orb]. destruct (rmax_ge r y0) as [M1 M2]. assert (h <= rmax y0 r) as HM by (destruct Hh as [->|Hh]; auto). assert (0 <= h) by (apply HP; exact Hh).
    destruct (is_inf (s_pdf0 d) || egt (s_pdf0 d) (Fin 10)).
    - eexists. split; [reflexivity|]. exact HM.
    - rewrite times_fin. eexists. split; [reflexivity|]. lra. }
  eapply (top_reached v auto (mkReq d F_pdf X (map Fin ys) xvals xmin xmax) v' top h HX); [cbn [q_Y q_X]; rewrite map_length; exact HY|exact H|exact HT| |apply HA; exact Hh]. split; [apply HP; exact Hh|exact Hle].
Qed.
Print Assumptions C138_density.
(** Hazards: for a rising curve every point up to the right end of the axis (hazard) or of its own
    range (cumulative hazard). A hazard that does not end at its highest point is shown whole. *)
Theorem C138_hazard d X ys xvals xmin xmax v auto v' i : StronglySorted Rlt X -> (1 < length X)%nat -> length ys = length X ->
  draw v auto (mkReq d F_hf X (map Fin ys) xvals xmin xmax) = Ok v' -> Forall (on (v_y auto)) ys -> Forall (fun y => 0 <= y) ys -> (i < length X)%nat ->
  (exists y, In y ys /\ last ys 0 < y) \/ StronglySorted Rle ys /\ on (v_x v') (nth i X 0) -> on (v_y v') (nth i ys 0).
Proof.
  intros HS HX HY H HA HP Hi HC. rewrite Forall_forall in HA, HP. assert (In (nth i ys 0) ys) as Hh by (apply nth_In; lia). set (h := nth i ys 0) in *.
  assert (exists top, own_y d F_hf X (map Fin ys) (snd (v_x v')) (snd (match own_x d X xvals xmin xmax with Ok o => o | Err _ => (0, 0) end)) = Ok (Fin top) /\ h <= top) as (top & HT & Hle).
  { destruct ys as [|y0 r]; [destruct Hh|]. unfold own_y. cbn [map]. change (Fin y0 :: map Fin r) with (map Fin (y0 :: r)). rewrite last_fin by discriminate. rewrite emax_fin. cbn [finite negb].
    rewrite andb_false_r. cbn [orb]. destruct (rmax_ge r y0) as [M1 M2]. assert (forall y, In y (y0 :: r) -> y <= rmax y0 r) as HM by (intros y [->|Hy]; auto). assert (0 <= h) by (apply HP; exact Hh).
    destruct (is_inf (s_hf0 d) || egt (s_hf0 d) (Fin 10)); [eexists; split; [reflexivity|apply HM; exact Hh]|]. cbn [egt].
    destruct (lt (last (y0 :: r) 0) (rmax y0 r)) eqn:E.
    - rewrite times_fin. eexists. split; [reflexivity|]. specialize (HM h Hh). lra.
    - apply lt_false in E. destruct HC as [(y & Hy & Hly)|(HM' & [_ HV])]; [exfalso; specialize (HM y Hy); lra|].
      destruct (index_high X (y0 :: r) (snd (v_x v')) i HS HM' HY HX Hi HV) as (B & C). rewrite nth_fin by (rewrite HY; exact B). rewrite times_fin. eexists. split; [reflexivity|]. fold h in C. lra. }
  eapply (top_reached v auto (mkReq d F_hf X (map Fin ys) xvals xmin xmax) v' top h HX); [cbn [q_Y q_X]; rewrite map_length; exact HY|exact H|exact HT| |apply HA; exact Hh]. split; [apply HP; exact Hh|exact Hle].
Qed.
Print Assumptions C138_hazard.
Theorem C138_cumulative_hazard d X ys xvals xmin xmax v auto v' i : valid d -> StronglySorted Rlt X -> (1 < length X)%nat -> length ys = length X ->
  draw v auto (mkReq (subject_of d) F_chf X (map Fin ys) xvals xmin xmax) = Ok v' -> Forall (on (v_y auto)) ys -> Forall (fun y => 0 <= y) ys -> StronglySorted Rle ys ->
  (i < length X)%nat -> belongs d xvals xmin xmax (nth i X 0) -> on (v_y v') (nth i ys 0).
Proof.
  intros V HS HX HY H HA HP HM Hi HB. rewrite Forall_forall in HA, HP. assert (In (nth i ys 0) ys) as Hh by (apply nth_In; lia). set (h := nth i ys 0) in *.
  destruct (draw_inv v auto (mkReq (subject_of d) F_chf X (map Fin ys) xvals xmin xmax) v' HX H) as (own & _ & HO & _). cbn [q_subject q_X q_xvals q_xmin q_xmax] in HO. pose proof (own_x_dist d X xvals xmin xmax own _ V HO HB) as [_ HV].
  destruct (index_high X ys (snd own) i HS HM HY HX Hi HV) as (B & C).
  eapply (top_reached v auto (mkReq (subject_of d) F_chf X (map Fin ys) xvals xmin xmax) v' (nth (index_at (snd own) X) ys 0 * (11 / 10)) h HX); [cbn [q_Y q_X]; rewrite map_length; exact HY|exact H| | |apply HA; exact Hh].
  - cbn [q_subject q_func q_X q_Y q_xvals q_xmin q_xmax]. rewrite HO. unfold own_y. destruct ys as [|y0 r]; [destruct Hh|]. cbn [map]. change (Fin y0 :: map Fin r) with (map Fin (y0 :: r)).
    rewrite nth_fin by (rewrite HY; exact B). reflexivity.
  - assert (0 <= h) by (apply HP; exact Hh). fold h in C. lra.
Qed.
Print Assumptions C138_cumulative_hazard.

(** A view of exactly 0 to 1 in both directions is taken for fresh axes: the hazard function of an
    exponential distribution with Lambda = 10/11 for x from 0 to 1 gives one, and the next plot hides it. *)
Definition hazard_01 : request := mkReq (subject_of (Exponential (10 / 11) 0)) F_hf [0; 1] [Fin (10 / 11); Fin (10 / 11)] (Some [0; 1]) None None.
Definition next_plot : request := mkReq (subject_of (Exponential 1 0)) F_cdf [5; 6] [Fin (1 - exp (- 5)); Fin (1 - exp (- 6))] (Some [5; 6]) None None.
Theorem C138_blank_refuted : exists v0 auto v1 auto' v2, blank v0 /\ HF (Exponential (10 / 11) 0) [0; 1] = Ok (q_Y hazard_01) /\ draw v0 auto hazard_01 = Ok v1 /\ draw v1 auto' next_plot = Ok v2 /\
  on (v_x v1) (1 / 2) /\ ~ on (v_x v2) (1 / 2).
Proof.
  exists (mkView (0, 1) (0, 1)), (mkView (0, 1) (0, 1)), (mkView (0, 1) (0, 1)), (mkView (0, 1) (0, 1)), (mkView (5, 6) (0, 11 / 10)).
  assert (is01 (0, 1) = true) as E01. { unfold is01. cbn [fst snd]. destruct (Req_EM_T 0 0); [|congruence]. destruct (Req_EM_T 1 1); [reflexivity|congruence]. }
  assert (lt 0 1 = true) as L01 by (apply lt_spec; lra). assert (lt 1 0 = false) as L10 by (apply lt_false; lra). assert (lt 5 6 = true) as L56 by (apply lt_spec; lra). assert (lt 6 5 = false) as L65 by (apply lt_false; lra).
  assert (pdf0 (Exponential (10 / 11) 0) = Fin (10 / 11)) as P0.
  { unfold pdf0, pdf. cbv zeta. replace ((0 - 0) / (1 / (10 / 11))) with 0 by field. destruct (Rlt_dec 0 0); [lra|]. rewrite Ropp_0, exp_0. f_equal. field. }
  split; [split; reflexivity|]. split.
  { unfold HF. assert (array_ok (Exponential (10 / 11) 0) [0; 1] = true) as ->. { unfold array_ok, Rltb'. cbn [is_signed orb forallb is_beta negb andb]. destruct (Rlt_dec 0 0); [lra|]. destruct (Rlt_dec 1 0); [lra|]. reflexivity. }
    unfold thresholded, zeroise_below_gamma. cbn [zeroised]. destruct (Rlt_dec 0 0); [lra|]. reflexivity. }
  split; [|split; [|split; [unfold on; cbn [v_x fst snd]; lra|unfold on; cbn [v_x fst snd]; lra]]].
  - unfold draw, restore, use_prev, hazard_01. cbn [q_subject q_func q_X q_Y q_xvals q_xmin q_xmax v_x v_y]. rewrite E01. cbn [andb negb]. unfold own_x. cbn [rmin rmax]. rewrite L01, L10. cbn [bind fst snd]. repeat match goal with |- context [(1 <? length ?l)%nat] => change ((1 <? length l)%nat) with true end. cbn [andb].
    unfold own_y. cbn [subject_of s_hf0 last finite negb andb orb emax egt snd]. rewrite P0. cbn [is_inf egt finite negb andb orb].
    assert (lt 10 (10 / 11) = false) as -> by (apply lt_false; lra). assert (lt (10 / 11) (10 / 11) = false) as -> by (apply lt_false; lra). cbn [orb egt]. assert (lt (10 / 11) (10 / 11) = false) as -> by (apply lt_false; lra).
    repeat match goal with |- context [(1 <? length ?l)%nat] => change ((1 <? length l)%nat) with true end. cbn [snd]. unfold index_at. cbn [index_from]. assert (le 1 0 = false) as -> by (unfold le; destruct (Rle_dec 1 0); [lra|reflexivity]). assert (le 1 1 = true) as -> by (apply le_spec; lra).
    cbn [nth]. unfold times, emul. cbn [bind]. repeat match goal with |- context [(1 <? length ?l)%nat] => change ((1 <? length l)%nat) with true end. cbn [andb]. replace (10 / 11 * (11 / 10)) with 1 by field. destruct (Req_EM_T 0 1); [lra|]. reflexivity.
  - unfold draw, restore, use_prev, next_plot. cbn [q_subject q_func q_X q_Y q_xvals q_xmin q_xmax v_x v_y]. rewrite E01. cbn [andb negb]. unfold own_x. cbn [rmin rmax]. rewrite L56, L65. cbn [bind fst snd]. repeat match goal with |- context [(1 <? length ?l)%nat] => change ((1 <? length l)%nat) with true end. cbn [andb].
    unfold own_y. cbn [bind]. repeat match goal with |- context [(1 <? length ?l)%nat] => change ((1 <? length l)%nat) with true end. cbn [andb]. destruct (Req_EM_T 0 (11 / 10)); [lra|]. reflexivity.
Qed.
Print Assumptions C138_blank_refuted.

Example C138_case : exists v', never_blank (mkView (0, 1) (0, 1)) [next_plot] v' /\ ~ blank v' /\ valid (Exponential 1 0) /\ belongs (Exponential 1 0) (Some [5; 6]) None None 5.
Proof.
  destruct C138_blank_refuted as (v0 & a & v1 & a' & v2 & [B1 B2] & _ & H1 & H2 & _ & HN).
  assert (draw (mkView (0, 1) (0, 1)) (mkView (0, 1) (0, 1)) next_plot = Ok (mkView (5, 6) (0, 11 / 10))) as HD.
  { unfold draw, restore, use_prev, next_plot. cbn [q_subject q_func q_X q_Y q_xvals q_xmin q_xmax v_x v_y].
    assert (is01 (0, 1) = true) as ->. { unfold is01. cbn [fst snd]. destruct (Req_EM_T 0 0); [|congruence]. destruct (Req_EM_T 1 1); [reflexivity|congruence]. }
    assert (lt 5 6 = true) as L56 by (apply lt_spec; lra). assert (lt 6 5 = false) as L65 by (apply lt_false; lra).
    cbn [andb negb]. unfold own_x. cbn [rmin rmax]. rewrite L56, L65. cbn [bind fst snd]. repeat match goal with |- context [(1 <? length ?l)%nat] => change ((1 <? length l)%nat) with true end. cbn [andb].
    unfold own_y. cbn [bind]. repeat match goal with |- context [(1 <? length ?l)%nat] => change ((1 <? length l)%nat) with true end. cbn [andb]. destruct (Req_EM_T 0 (11 / 10)); [lra|]. reflexivity. }
  assert (~ blank (mkView (5, 6) (0, 11 / 10))) as NB. { intros [E _]. cbn [v_x] in E. assert (5 = 0) by congruence. lra. }
  exists (mkView (5, 6) (0, 11 / 10)). split; [|split; [exact NB|split; [cbn; lra|left; reflexivity]]].
  eapply Never_cons; [cbn; lia|reflexivity|exact HD|exact NB|constructor].
Qed.
