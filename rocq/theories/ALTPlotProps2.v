(** Property C140: the life-stress plots of the accelerated life test fitters. *)
From Coquelicot Require Import Coquelicot.
From Coq Require Import String.
From Coq Require Import List Arith Reals Bool Permutation Sorted Lra Lia.
From Verif Require Import Base RealFacts RList RepairModel RepairProofs NonparModel CIModel CIProofs DistModel RegProofs PlotModel PlotProofs OtherModel OtherSpec ALTModel ALTSpec ALTProofs ALTProofs2 ALTProps ALTProps2 PPlotSpec
  ALTPlotModel ALTPlotSpec ALTPlotProofs ALTPlotProps LPlotProofs.
Import ListNotations.
Open Scope R_scope.

(** ** Proofs *)
Lemma ok_inj {A} (x y : A) : Ok x = Ok y -> x = y.
Proof. intros H. now injection H. Qed.
Lemma stress_limits_spec lo hi : 0 < lo -> lo <= hi -> 0 < fst (stress_limits lo hi) /\ fst (stress_limits lo hi) <= lo /\ hi <= snd (stress_limits lo hi).
Proof.
  intros H0 H1. unfold stress_limits. cbn [fst snd]. assert (ln lo <= ln hi) as HL by (destruct H1 as [H1| ->]; [left; now apply ln_increasing|apply Rle_refl]).
  split; [apply exp_pos|]. split; [rewrite <- (exp_ln lo) at 3 by exact H0|rewrite <- (exp_ln hi) at 1 by lra]; apply CIProofs.exp_mono; lra.
Qed.
Lemma stress_limits_upper lo hi : 0 < lo -> 0 < hi -> snd (stress_limits lo hi) = hi * Rpower (hi / lo) (2 / 10).
Proof.
  intros H0 H1. unfold stress_limits, Rpower. cbn [snd]. rewrite exp_plus, exp_ln by exact H1. f_equal. f_equal. rewrite ln_div by lra. ring.
Qed.
Lemma ls_groups_spec swap fg : forall stresses i pts, ls_groups swap fg i stresses = Ok pts ->
  length pts = length stresses /\ forall j s, nth_error stresses j = Some s -> exists f, nth_error fg (i + j) = Some f /\ nth_error pts j = Some (map (fun t => oriented swap s t) f).
Proof.
  induction stresses as [|s rest IH]; intros i pts H; cbn [ls_groups] in H.
  - injection H as <-. split; [reflexivity|]. intros [|j] s Hs; discriminate.
  - apply bind_ok in H. destruct H as (f & Ef & H). apply bind_ok in H. destruct H as (c & _ & H). apply bind_ok in H. destruct H as (more & Em & H). injection H as <-. apply item_ok in Ef. destruct (IH _ _ Em) as (L & N).
    split; [cbn [length]; now rewrite L|]. intros [|j] z Hz; cbn [nth_error] in *; [injection Hz as <-; exists f; rewrite Nat.add_0_r; now split|]. rewrite <- Nat.add_succ_comm. now apply N.
Qed.
Lemma ls_groups_ok swap fg : forall stresses i, (i + length stresses <= color_cycle)%nat -> (i + length stresses <= length fg)%nat -> exists pts, ls_groups swap fg i stresses = Ok pts.
Proof.
  induction stresses as [|s rest IH]; intros i H1 H2; cbn [ls_groups]; [eexists; reflexivity|]. cbn [length] in *. destruct (nth_error fg i) as [f|] eqn:Ef; [|apply nth_error_None in Ef; lia].
  rewrite (proj2 (item_ok fg i f) Ef). cbn [bind]. assert (colour i = Ok i) as -> by (apply colour_ok; lia). cbn [bind]. destruct (IH (S i)) as (m & ->); [lia|lia|]. eexists. reflexivity.
Qed.
Lemma ls_groups_index swap fg : forall stresses i, (i <= color_cycle)%nat -> (color_cycle < i + length stresses)%nat -> (i + length stresses <= length fg)%nat -> ls_groups swap fg i stresses = Err IndexError.
Proof.
  induction stresses as [|s rest IH]; intros i H1 H2 H3; cbn [length] in *; [lia|]. cbn [ls_groups]. destruct (nth_error fg i) as [f|] eqn:Ef; [|apply nth_error_None in Ef; lia].
  rewrite (proj2 (item_ok fg i f) Ef). cbn [bind]. destruct (Nat.eq_dec i color_cycle) as [->|Ne]; [unfold colour; now rewrite Nat.ltb_irrefl|]. assert (colour i = Ok i) as -> by (apply colour_ok; lia). cbn [bind]. now rewrite IH by lia.
Qed.
Lemma ls_groups3_spec fg : forall stresses i pts, ls_groups3 fg i stresses = Ok pts ->
  length pts = length stresses /\ forall j s, nth_error stresses j = Some s -> exists f, nth_error fg (i + j) = Some f /\ nth_error pts j = Some (map (fun t => (s, t)) f).
Proof.
  induction stresses as [|s rest IH]; intros i pts H; cbn [ls_groups3] in H.
  - injection H as <-. split; [reflexivity|]. intros [|j] s Hs; discriminate.
  - apply bind_ok in H. destruct H as (f & Ef & H). apply bind_ok in H. destruct H as (c & _ & H). apply bind_ok in H. destruct H as (more & Em & H). injection H as <-. apply item_ok in Ef. destruct (IH _ _ Em) as (L & N).
    split; [cbn [length]; now rewrite L|]. intros [|j] z Hz; cbn [nth_error] in *; [injection Hz as <-; exists f; rewrite Nat.add_0_r; now split|]. rewrite <- Nat.add_succ_comm. now apply N.
Qed.
Lemma ls_plot_inv life fg stresses use swap left P : life_stress_plot life fg stresses use swap left = Ok P ->
  let lo := match use with Some u => Rmin (rmin stresses) u | None => rmin stresses end in
  let lim := stress_limits lo (rmax stresses) in
  let lifes := (0, 12 / 10 * Rmax (life (fst lim)) (rmax (concat fg))) in
  stresses <> [] /\ concat fg <> [] /\ e_line P = map (fun s => oriented swap s (life s)) (tl (linspace 0 (snd lim * 10) 1000)) /\ ls_groups swap fg 0 stresses = Ok (e_points P) /\
  e_use P = option_map (fun u => if swap then [(- 10 ^ 20, u); (life u, u); (life u, left)] else [(u, - 10 ^ 20); (u, life u); (left, life u)]) use /\
  e_xlim P = (if swap then lifes else lim) /\ e_ylim P = (if swap then lim else lifes).
Proof.
  intros H lo lim lifes. unfold life_stress_plot in H. destruct stresses as [|s0 rest]; [discriminate|]. apply bind_ok in H. destruct H as (pts & EP & H). apply bind_ok in H. destruct H as (mark & EM & H).
  destruct (concat fg) as [|t0 ts] eqn:EC; [discriminate|]. apply ok_inj in H. subst P. cbn [e_line e_points e_use e_xlim e_ylim].
  split; [discriminate|]. split; [discriminate|]. split; [reflexivity|]. split; [exact EP|]. split; [|split; reflexivity]. destruct use as [u|]; [|now injection EM as <-]. apply bind_ok in EM. destruct EM as (c & _ & EM). now injection EM as <-.
Qed.
Lemma at_stress_combine {K} (kdec : forall a b : K, {a = b} + {a <> b}) s ks : forall ts t, In t (at_stress kdec s ks ts) <-> In (s, t) (combine ks ts).
Proof.
  induction ks as [|x ks IH]; intros ts t; [reflexivity|]. destruct ts as [|v ts]; [reflexivity|]. cbn [at_stress combine In]. destruct (kdec x s) as [->|N]; cbn [In]; rewrite IH; split.
  - intros [->|H]; [now left|now right].
  - intros [H|H]; [injection H as ->; now left|now right].
  - intros H. now right.
  - intros [H|H]; [congruence|exact H].
Qed.

(** * C140 *)

(** Every failure is drawn, at its stress, and nothing else is drawn as a failure; the failures at a stress form a group. *)
Theorem C140_failures m k r left P : fitter_life_stress m k r left = Ok P -> grouped false k ->
  (forall i s, nth_error (k_stresses k) i = Some s -> nth_error (e_points P) i = Some (map (fun t => (fst s, t)) (failed_at false k s))) /\
  forall x t, In (x, t) (concat (e_points P)) <-> In (x, t) (combine (k_stress_1 k) (k_failures k)).
Proof.
  intros H (ND & HI & GF & _). unfold fitter_life_stress in H. destruct (ls_plot_inv _ _ _ _ _ _ _ H) as (_ & _ & _ & HP & _). destruct (ls_groups_spec _ _ _ _ _ HP) as (L & N).
  assert (forall i s, nth_error (k_stresses k) i = Some s -> nth_error (e_points P) i = Some (map (fun t => (fst s, t)) (failed_at false k s))) as HG.
  { intros i s Hs. destruct (N i (fst s) (map_nth_error _ _ _ Hs)) as (f & Ef & Ep). cbn [plus] in Ef. rewrite GF, (map_nth_error _ _ _ Hs) in Ef. injection Ef as <-. exact Ep. }
  split; [exact HG|]. assert (forall x t, In (x, t) (combine (k_stress_1 k) (k_failures k)) <-> In t (failed_at false k (x, 0))) as HC.
  { intros x t. unfold failed_at. rewrite at_stress_combine. unfold failure_stresses, pairs_of. generalize (k_failures k) as ts. induction (k_stress_1 k) as [|y ys IH]; intros [|v ts]; cbn [map combine In]; try tauto.
    rewrite <- IH. split; intros [E|E]; try (now right); left; injection E as -> ->; reflexivity. }
  intros x t. rewrite HC, in_concat. split.
  - intros (g & Hg & Ht). apply In_nth_error in Hg. destruct Hg as (i & Hi). destruct (nth_error (k_stresses k) i) as [s|] eqn:Es. 2: { apply nth_error_None in Es. assert (i < length (e_points P))%nat by (apply nth_error_Some; congruence). rewrite map_length in L. lia. }
    rewrite (HG i s Es) in Hi. injection Hi as <-. apply in_map_iff in Ht. destruct Ht as (t' & E & Ht). injection E as <- <-.
    assert (In s (failure_stresses false k)) as Hs by (apply HI; eapply nth_error_In; exact Es). unfold failure_stresses, pairs_of in Hs. apply in_map_iff in Hs. destruct Hs as (z & <- & _). exact Ht.
  - intros Ht. assert (In (x, 0) (k_stresses k)) as Hs. { apply HI. unfold failed_at in Ht. rewrite at_stress_combine in Ht. exact (in_combine_l _ _ _ _ Ht). }
    apply In_nth_error in Hs. destruct Hs as (i & Hi). exists (map (fun t => (x, t)) (failed_at false k (x, 0))). split; [exact (nth_error_In _ _ (HG _ _ Hi))|]. apply in_map_iff. now exists t.
Qed.
Print Assumptions C140_failures.

(** The line has the life of the model at its stresses: 999 equal steps, from a first stress up to ten times the end of the axis. *)
Theorem C140_line life fg stresses use swap left P : life_stress_plot life fg stresses use swap left = Ok P ->
  let top := snd (if swap then e_ylim P else e_xlim P) in
  length (e_line P) = N.to_nat 999 /\
  forall i, (i < N.to_nat 999)%nat -> exists s, s = INR (i + 1) * (10 * top / 999) /\ nth_error (e_line P) i = Some (oriented swap s (life s)).
Proof.
  intros H top. destruct (ls_plot_inv _ _ _ _ _ _ _ H) as (_ & _ & HL & _ & _ & HX & HY). set (lim := stress_limits _ _) in *.
  assert (top = snd lim) as ET by (unfold top; rewrite HX, HY; now destruct swap). rewrite HL.
  assert (length (linspace 0 (snd lim * 10) 1000) = N.to_nat 1000) as LL by (rewrite linspace_length; reflexivity).
  destruct (linspace 0 (snd lim * 10) 1000) as [|h l] eqn:EL; [discriminate|]. cbn [tl]. cbn [length] in LL. assert (length l = N.to_nat 999) as LL2 by lia. split; [now rewrite map_length|].
  intros i Hi. exists (INR (i + 1) * (10 * top / 999)). split; [reflexivity|].
  assert (nth i l 0 = INR (i + 1) * (10 * top / 999)) as EN.
  { change (nth i l 0) with (nth (S i) (h :: l) 0). rewrite <- EL, linspace_nth by (change 1000%nat with (N.to_nat 1000); lia). rewrite ET, Rplus_0_l, Rminus_0_r, Nat.add_1_r. f_equal. replace (INR (1000 - 1)) with 999; [field|]. change (1000 - 1)%nat with (N.to_nat 999). rewrite INR_IZR_INZ. now rewrite N_nat_Z. }
  rewrite <- EN. apply (map_nth_error (fun s => oriented swap s (life s))). apply nth_error_nth'. lia.
Qed.
Print Assumptions C140_line.

Lemma floor_nat x : 0 <= x -> exists n, INR n <= x < INR n + 1.
Proof. intros H. destruct (nfloor_ex x H) as (n & Hn). now exists n. Qed.
(** The line reaches every stress on the axis, if the axis spans a factor of less than 99.9. *)
Theorem C140_line_reaches_partial life fg stresses use swap left P s : life_stress_plot life fg stresses use swap left = Ok P ->
  let axis := if swap then e_ylim P else e_xlim P in 0 < fst axis -> 10 * snd axis <= 999 * fst axis -> fst axis <= s <= snd axis -> reaches swap (e_line P) s.
Proof.
  intros H axis H0 H1 H2. destruct (C140_line _ _ _ _ _ _ _ H) as (L & N). fold axis in N. set (step := 10 * snd axis / 999) in *.
  assert (0 < step) as Hs by (unfold step; apply Rdiv_lt_0_compat; lra). assert (step <= s) as Hs1 by (unfold step; apply Rle_div_l; lra).
  destruct (floor_nat (s / step)) as (n & Hn). { apply Rdiv_le_0_compat; lra. }
  assert (INR n * step <= s < (INR n + 1) * step) as (B1 & B2). { split; [apply Rle_div_r; lra|apply Rlt_div_l; lra]. }
  assert (1 <= n)%nat as Hn1. { destruct n; [|lia]. cbn [INR] in B2. lra. }
  assert (n < N.to_nat 900)%nat as Hn2.
  { apply INR_lt. replace (INR (N.to_nat 900)) with 900 by (rewrite INR_IZR_INZ; now rewrite N_nat_Z). assert (s < 900 * step) by (unfold step; lra). nra. }
  destruct (N (n - 1)%nat) as (x & Ex & Nx); [lia|]. destruct (N n) as (y & Ey & Ny); [lia|]. exists (n - 1)%nat, (oriented swap x (life x)), (oriented swap y (life y)).
  split; [exact Nx|]. split; [now replace (n - 1 + 1)%nat with n by lia|]. replace (n - 1 + 1)%nat with n in Ex by lia. rewrite plus_INR in Ey. cbn [INR] in Ey. unfold oriented. destruct swap; cbn [fst snd]; rewrite Ex, Ey; lra.
Qed.
Print Assumptions C140_line_reaches_partial.
(** Over a wider axis it does not: at test stresses of 1 and 50 the line starts above the lower one. The point at stress 0, which the model leaves out, has an infinite life. *)
Theorem C140_line_reaches_refuted life left f g : f <> [] -> exists P, life_stress_plot life [f; g] [1; 50] None false left = Ok P /\ ~ reaches false (e_line P) 1.
Proof.
  intros Hf. destruct (ls_groups_ok false [f; g] [1; 50] 0) as (pts & EP); [cbn; unfold color_cycle; lia|cbn; lia|].
  destruct (life_stress_plot life [f; g] [1; 50] None false left) as [P|e] eqn:E.
  2: { exfalso. unfold life_stress_plot in E. rewrite EP in E. cbn [bind] in E. destruct f; [congruence|]. cbn [concat app] in E. discriminate. }
  exists P. split; [reflexivity|]. destruct (C140_line _ _ _ _ _ _ _ E) as (L & N). intros (i & p & q & Hp & _ & HB). cbn [fst snd] in HB.
  destruct (N i) as (s & Es & Ns). { rewrite <- L. apply nth_error_Some. congruence. }
  rewrite Ns in Hp. injection Hp as <-. cbn [oriented fst] in HB. destruct (ls_plot_inv _ _ _ _ _ _ _ E) as (_ & _ & _ & _ & _ & HX & _). rewrite HX in Es.
  assert (rmin [1; 50] = 1) as E1 by (unfold rmin; cbn [fold_right]; unfold Rmin; destruct (Rle_dec _ _); lra). assert (rmax [1; 50] = 50) as E2 by (unfold rmax; cbn [fold_right]; unfold Rmax; destruct (Rle_dec _ _); lra). rewrite E1, E2 in Es. rewrite stress_limits_upper in Es by lra.
  assert (2 <= Rpower (50 / 1) (2 / 10)) as HR.
  { replace 2 with (Rpower (2 ^ 5) (2 / 10)) at 1. - apply Rle_Rpower_l; lra. - rewrite <- Rpower_pow by lra. rewrite Rpower_mult. cbn [INR]. replace ((1 + 1 + 1 + 1 + 1) * (2 / 10)) with 1 by lra. apply Rpower_1. lra. }
  assert (1 <= INR (i + 1)) by (rewrite plus_INR; cbn [INR]; pose proof (pos_INR i); lra). assert (1 < 10 * (50 * Rpower (50 / 1) (2 / 10)) / 999) as HG by (apply Rlt_div_r; lra).
  assert (1 < s) by (rewrite Es; nra). lra.
Qed.
Print Assumptions C140_line_reaches_refuted.

(** What the chart shows: all failures, all test stresses, and the life at the use stress, if that is not above the test stresses. *)
Theorem C140_axes_partial life fg stresses use swap left P : life_stress_plot life fg stresses use swap left = Ok P -> (forall s, In s stresses -> 0 < s) -> (forall t, In t (concat fg) -> 0 < t) -> falling life -> (forall s, 0 < s -> 0 < life s) ->
  (forall u, use = Some u -> 0 < u <= rmax stresses) ->
  (forall p, In p (concat (e_points P)) -> on_chart (e_xlim P) (e_ylim P) p) /\ (forall s, In s stresses -> on_chart (e_xlim P) (e_ylim P) (oriented swap s (life s))) /\
  (forall u, use = Some u -> exists a b, e_use P = Some [a; oriented swap u (life u); b] /\ on_chart (e_xlim P) (e_ylim P) (oriented swap u (life u))).
Proof.
  intros H Hs Ht Hf Hl Hu. destruct (ls_plot_inv _ _ _ _ _ _ _ H) as (NE & NC & _ & HP & HU & HX & HY). set (lo := match use with Some u => _ | None => _ end) in *.
  assert (0 < lo /\ lo <= rmax stresses /\ (forall s, In s stresses -> lo <= s) /\ forall u, use = Some u -> lo <= u) as (L1 & L2 & L3 & L4).
  { pose proof (Hs _ (rmin_in _ NE)). pose proof (rmax_ge _ _ (rmin_in _ NE)). unfold lo. destruct use as [u|].
    - destruct (Hu u eq_refl). pose proof (Rmin_l (rmin stresses) u). pose proof (Rmin_r (rmin stresses) u). split; [now apply Rmin_glb_lt|]. split; [lra|]. split; [intros s Hin; pose proof (rmin_le _ _ Hin); lra|]. intros v E. injection E as <-. lra.
    - split; [lra|]. split; [lra|]. split; [intros s Hin; now apply rmin_le|discriminate]. }
  destruct (stress_limits_spec lo (rmax stresses) L1 L2) as (M1 & M2 & M3). set (lim := stress_limits lo (rmax stresses)) in *.
  assert (forall s t, lo <= s <= rmax stresses -> 0 <= t <= Rmax (life (fst lim)) (rmax (concat fg)) -> on_chart (e_xlim P) (e_ylim P) (oriented swap s t)) as HON.
  { intros s t A B. unfold on_chart, oriented. rewrite HX, HY. destruct swap; cbn [fst snd]; lra. }
  assert (forall s, lo <= s <= rmax stresses -> on_chart (e_xlim P) (e_ylim P) (oriented swap s (life s))) as HLF.
  { intros s A. apply HON; [exact A|]. split; [left; apply Hl; lra|]. eapply Rle_trans; [|apply Rmax_l]. apply Hf; lra. }
  split; [|split].
  - intros p Hp. apply in_concat in Hp. destruct Hp as (g & Hg & Hin). apply In_nth_error in Hg. destruct Hg as (i & Hi). destruct (ls_groups_spec _ _ _ _ _ HP) as (L & N).
    destruct (nth_error stresses i) as [s|] eqn:Es. 2: { apply nth_error_None in Es. assert (i < length (e_points P))%nat by (apply nth_error_Some; congruence). lia. }
    destruct (N i s Es) as (f & Ef & Eg). rewrite Hi in Eg. injection Eg as ->. apply in_map_iff in Hin. destruct Hin as (t & <- & Ht0). apply nth_error_In in Es, Ef.
    assert (In t (concat fg)) as HC by (apply in_concat; now exists f). apply HON; [split; [now apply L3|now apply rmax_ge]|]. split; [left; now apply Ht|]. eapply Rle_trans; [|apply Rmax_r]. now apply rmax_ge.
  - intros s Hin. apply HLF. split; [now apply L3|now apply rmax_ge].
  - intros u E. subst use. cbn [option_map] in HU. destruct (Hu u eq_refl). unfold oriented at 1. rewrite HU. destruct swap; do 2 eexists; (split; [reflexivity|]); apply HLF; split; try lra; now apply L4.
Qed.
Print Assumptions C140_axes_partial.
(** A use stress further above the test stresses is off the chart, whatever the life. *)
Theorem C140_use_refuted life fg stresses u swap left P : life_stress_plot life fg stresses (Some u) swap left = Ok P -> (forall s, In s stresses -> 0 < s) ->
  rmax stresses * Rpower (rmax stresses / rmin stresses) (2 / 10) < u -> forall t, ~ on_chart (e_xlim P) (e_ylim P) (oriented swap u t).
Proof.
  intros H Hs Hu t HC. destruct (ls_plot_inv _ _ _ _ _ _ _ H) as (NE & _ & _ & _ & _ & HX & HY). pose proof (Hs _ (rmin_in _ NE)) as Hmin. pose proof (rmax_ge _ _ (rmin_in _ NE)).
  assert (1 <= rmax stresses / rmin stresses) by (apply Rle_div_r; lra). assert (1 <= Rpower (rmax stresses / rmin stresses) (2 / 10)) as HR1. { replace 1 with (Rpower (rmax stresses / rmin stresses) 0) by (apply Rpower_O; lra). apply Rle_Rpower; lra. }
  assert (Rmin (rmin stresses) u = rmin stresses) as EM by (apply Rmin_left; nra). rewrite EM in *. unfold on_chart, oriented in HC. rewrite HX, HY in HC.
  assert (snd (stress_limits (rmin stresses) (rmax stresses)) < u) by (rewrite stress_limits_upper by lra; exact Hu). destruct swap; cbn [fst snd] in HC; lra.
Qed.
Print Assumptions C140_use_refuted.
Theorem C140_use_refuted_case life left f g : f <> [] -> exists P, life_stress_plot life [f; g] [1; 2] (Some 3) false left = Ok P /\ forall t, ~ on_chart (e_xlim P) (e_ylim P) (3, t).
Proof.
  intros Hf. destruct (ls_groups_ok false [f; g] [1; 2] 0) as (pts & EP); [cbn; unfold color_cycle; lia|cbn; lia|].
  destruct (life_stress_plot life [f; g] [1; 2] (Some 3) false left) as [P|e] eqn:E.
  2: { exfalso. unfold life_stress_plot in E. rewrite EP in E. destruct f; [congruence|]. assert (colour (length [2] + 1) = Ok 2%nat) as EC by reflexivity. cbn [bind] in E. rewrite EC in E. cbn [bind concat app] in E. discriminate. }
  exists P. split; [reflexivity|]. intros t. apply (C140_use_refuted _ _ _ _ _ _ _ E); [intros s [<-|[<-|[]]]; lra|].
  assert (rmin [1; 2] = 1) as -> by (unfold rmin; cbn [fold_right]; unfold Rmin; destruct (Rle_dec _ _); lra). assert (rmax [1; 2] = 2) as -> by (unfold rmax; cbn [fold_right]; unfold Rmax; destruct (Rle_dec _ _); lra).
  replace (2 / 1) with 2 by lra. assert (Rpower 2 (2 / 10) < 3 / 2); [|lra]. rewrite <- (Rpower_1 (3 / 2)) by lra. replace 1 with (5 * (2 / 10)) by lra. rewrite <- Rpower_mult.
  apply Rlt_Rpower_l; [lra|]. split; [lra|]. replace 5 with (INR 5) by (cbn; lra). rewrite Rpower_pow by lra. lra.
Qed.
Print Assumptions C140_use_refuted_case.

(** When life falls with the stress. *)
Definition ageing (m : ls_model) (p : ls_params) : Prop :=
  match m with
  | OtherModel.LS_Exponential => 0 <= l_0 p /\ 0 < l_1 p
  | LS_Eyring => 0 <= l_0 p
  | LS_Power => 0 < l_0 p /\ l_1 p <= 0
  | _ => False
  end.
Lemma ageing_falls m p : ageing m p -> falling (fun s => alt_life m p s 0).
Proof.
  intros H x y Hx Hxy. assert (/ y <= / x) as HI by (apply Rinv_le_contravar; lra). assert (0 < / y) by (apply Rinv_0_lt_compat; lra). destruct m; cbn [ageing alt_life] in *; try contradiction.
  - apply Rmult_le_compat_l; [lra|]. apply CIProofs.exp_mono. unfold Rdiv. apply Rmult_le_compat_l; lra.
  - unfold Rdiv at 1 3. rewrite !Rmult_1_l. apply Rmult_le_compat; [lra|left; apply exp_pos|exact HI|]. apply CIProofs.exp_mono. unfold Rdiv. assert (l_0 p * / y <= l_0 p * / x) by (apply Rmult_le_compat_l; lra). lra.
  - apply Rmult_le_compat_l; [lra|]. unfold Rpower. apply CIProofs.exp_mono. assert (ln x <= ln y) by (destruct Hxy as [L| ->]; [left; apply ln_increasing; lra|apply Rle_refl]). nra.
Qed.
(** The same of the fitters. *)
Theorem C140_shown_partial kle d m noisy fit2P minimize diag a k r left P : total_order kle -> alt_check kle (Some m) a = Ok k -> alt_fit kle d m noisy fit2P minimize diag a = Ok r -> dual_stress m = false -> fitter_life_stress m k r left = Ok P ->
  grouped false k -> ageing m (a_params r) -> Forall (Rlt 0) (k_stress_1 k) -> (forall u, k_use k = Some u -> 0 < fst u <= rmax (map fst (k_stresses k))) ->
  (forall x t, In (x, t) (combine (k_stress_1 k) (k_failures k)) -> on_chart (e_xlim P) (e_ylim P) (x, t)) /\
  (forall u, k_use k = Some u -> on_chart (e_xlim P) (e_ylim P) (fst u, alt_life m (a_params r) (fst u) 0)).
Proof.
  intros Ho Hk Hr Hd H HG HA Hp Hu. destruct (plot_inputs _ _ _ _ _ _ _ _ _ _ Ho Hk Hr) as (_ & _ & HF & _). destruct (C140_failures _ _ _ _ _ H HG) as (_ & HC). pose proof HG as (_ & HI & _). unfold fitter_life_stress in H.
  destruct (C140_axes_partial _ _ _ _ _ _ _ H) as (A1 & A2 & A3).
  - intros s Hs. apply in_map_iff in Hs. destruct Hs as (z & <- & Hz). apply HI in Hz. unfold failure_stresses, pairs_of in Hz. apply in_map_iff in Hz. destruct Hz as (y & <- & Hy). rewrite Forall_forall in Hp. now apply Hp.
  - intros t Ht. apply in_concat in Ht. destruct Ht as (f & Hf & Ht). apply HF in Hf. destruct Hf as (_ & Hf). rewrite Forall_forall in Hf. now apply Hf.
  - now apply ageing_falls.
  - intros s Hs. apply life_pos; [|exact Hs]. destruct m; cbn in *; tauto.
  - intros u E. destruct (k_use k) as [v|]; [|discriminate]. injection E as <-. now apply Hu.
  - split; [intros x t Hin; apply A1, HC, Hin|]. intros u E. destruct (A3 (fst u)) as (b & c & _ & Q); [now rewrite E|exact Q].
Qed.
Print Assumptions C140_shown_partial.

(** Up to ten stresses, the use stress included, are drawn; with more the fitter raises IndexError. *)
Theorem C140_made_partial kle d m noisy fit2P minimize diag a k r left : total_order kle -> alt_check kle (Some m) a = Ok k -> alt_fit kle d m noisy fit2P minimize diag a = Ok r ->
  (length (k_stresses k) + (match k_use k with Some _ => 1 | None => 0 end) <= 10)%nat -> exists P, fitter_life_stress m k r left = Ok P.
Proof.
  intros Ho Hk Hr HL. destruct (plot_inputs _ _ _ _ _ _ _ _ _ _ Ho Hk Hr) as (L1 & _ & HF & NE). destruct (k_stresses k) as [|s0 rest] eqn:ES; [congruence|]. unfold fitter_life_stress, life_stress_plot. rewrite ES. cbn [map].
  destruct (ls_groups_ok false (k_failure_groups k) (map fst (s0 :: rest)) 0) as (pts & EP); [rewrite map_length; unfold color_cycle; lia|rewrite map_length; lia|]. cbn [map] in EP. rewrite EP. cbn [bind].
  destruct (k_failure_groups k) as [|f0 fs]; [discriminate|]. destruct (HF f0 (or_introl eq_refl)) as (Hf & _). destruct f0 as [|t0 ts]; [congruence|]. cbn [concat app].
  destruct (k_use k) as [u|]; cbn [option_map]; [|eexists; reflexivity]. cbn [length] in HL. assert (colour (length (map fst rest) + 1) = Ok (length (map fst rest) + 1)%nat) as -> by (apply colour_ok; rewrite map_length; unfold color_cycle; lia). eexists. reflexivity.
Qed.
Print Assumptions C140_made_partial.
Theorem C140_many_refuted kle d m noisy fit2P minimize diag left : total_order kle -> dual_stress m = false ->
  acceptable false (eleven None) /\
  forall k r, alt_check kle (Some m) (eleven None) = Ok k -> alt_fit kle d m noisy fit2P minimize diag (eleven None) = Ok r -> fitter_life_stress m k r left = Err IndexError.
Proof.
  intros Ho Hd. split; [apply eleven_acceptable|]. intros k r Hk Hr. destruct (plot_inputs _ _ _ _ _ _ _ _ _ _ Ho Hk Hr) as (L1 & _ & _ & NE). pose proof (eleven_stresses kle m k Ho Hd Hk) as L11.
  unfold fitter_life_stress, life_stress_plot. destruct (k_stresses k) as [|s0 rest] eqn:ES; [congruence|]. cbn [map].
  pose proof (ls_groups_index false (k_failure_groups k) (map fst (s0 :: rest)) 0) as HX. cbn [map] in HX. rewrite HX; [reflexivity|unfold color_cycle; lia| |]; cbn [length] in *; rewrite map_length; unfold color_cycle; lia.
Qed.
Print Assumptions C140_many_refuted.

(** Two stresses: the failures at their stresses, the surface of the life of the model up to the edges of the axes, the use stress at its life; all stresses are on the axes. *)
Theorem C140_surface m k r P : fitter_surface m k r = Ok P -> grouped true k -> (forall s, In s (k_stresses k) \/ k_use k = Some s -> 0 < fst s /\ 0 < snd s) ->
  (forall i s, nth_error (k_stresses k) i = Some s -> nth_error (e_points3 P) i = Some (map (fun t => (s, t)) (failed_at true k s))) /\
  (forall s L, In (s, L) (e_grid P) -> life_stress m (named m (a_params r)) (fst s) (snd s) L /\ on_chart (e_xlim3 P) (e_ylim3 P) s) /\
  (forall x y, (x = fst (e_xlim3 P) \/ x = snd (e_xlim3 P)) -> (y = fst (e_ylim3 P) \/ y = snd (e_ylim3 P)) -> exists L, In ((x, y), L) (e_grid P)) /\
  (forall s, In s (k_stresses k) \/ k_use k = Some s -> on_chart (e_xlim3 P) (e_ylim3 P) s) /\
  (forall u, k_use k = Some u -> exists L, e_use3 P = Some (u, L) /\ life_stress m (named m (a_params r)) (fst u) (snd u) L).
Proof.
  intros H (ND & HI & GF & _) Hpos. unfold fitter_surface, life_stress_surface in H. destruct (k_stresses k) as [|s0 rest] eqn:ES; [discriminate|]. rewrite <- ES in *.
  set (all := k_stresses k ++ _) in *. set (l1 := stress_limits (rmin (map fst all)) _) in *. set (l2 := stress_limits (rmin (map snd all)) _) in *.
  assert (all <> []) as HN by (unfold all; rewrite ES; discriminate). assert (forall s, In s all <-> In s (k_stresses k) \/ k_use k = Some s) as HA.
  { intros s. unfold all. rewrite in_app_iff. destruct (k_use k) as [u|]; cbn [In]; split; intros [Q|Q]; auto; [destruct Q as [->|[]]; now right|injection Q as ->; tauto|destruct Q|discriminate]. }
  assert (forall (g : R * R -> R), (forall s, In s all -> 0 < g s) -> let l := stress_limits (rmin (map g all)) (rmax (map g all)) in 0 < fst l /\ forall s, In s all -> fst l <= g s <= snd l) as HL.
  { intros g Hg l. assert (map g all <> []) as HM by (destruct all; [congruence|discriminate]). pose proof (rmin_in _ HM) as Q. assert (0 < rmin (map g all)) as Q0. { apply in_map_iff in Q. destruct Q as (z & <- & Hz). now apply Hg. }
    destruct (stress_limits_spec (rmin (map g all)) (rmax (map g all)) Q0) as (A & B & C); [now apply rmax_ge|]. split; [exact A|]. intros s Hs. pose proof (rmin_le _ _ (in_map g _ _ Hs)). pose proof (rmax_ge _ _ (in_map g _ _ Hs)). fold l in B, C. lra. }
  destruct (HL fst) as (P1 & B1). { intros s Hs. apply HA in Hs. now apply Hpos. } destruct (HL snd) as (P2 & B2). { intros s Hs. apply HA in Hs. now apply Hpos. } fold l1 in P1, B1. fold l2 in P2, B2. clear HL.
  set (a1 := linspace (fst l1) (snd l1) 50) in *. set (a2 := linspace (fst l2) (snd l2) 50) in *.
  assert (forall l, 0 < fst l -> fst l <= snd l -> let aa := linspace (fst l) (snd l) 50 in rmin aa = fst l /\ rmax aa = snd l /\ In (fst l) aa /\ In (snd l) aa /\ forall x, In x aa -> fst l <= x <= snd l) as HE.
  { intros l Q0 Q1 aa. destruct (linspace_ends (fst l) (snd l) 50) as (E1 & E2); [lia|]. fold aa in E1, E2. assert (aa <> []) as NN by (intros E; rewrite E in E1; destruct E1).
    assert (forall x, In x aa -> fst l <= x <= snd l) as HB. { intros x Hx. apply linspace_bounds in Hx. rewrite Rmin_left, Rmax_right in Hx by exact Q1. exact Hx. }
    pose proof (HB _ (rmin_in _ NN)). pose proof (HB _ (rmax_in _ NN)). pose proof (rmin_le _ _ E1). pose proof (rmax_ge _ _ E2). repeat split; try assumption; try lra; apply HB; assumption. }
  assert (In s0 all) as H0 by (unfold all; rewrite ES; now left). destruct (HE l1 P1) as (M1 & N1 & I1 & J1 & K1); [specialize (B1 s0 H0); lra|]. destruct (HE l2 P2) as (M2 & N2 & I2 & J2 & K2); [specialize (B2 s0 H0); lra|]. fold a1 in M1, N1, I1, J1, K1. fold a2 in M2, N2, I2, J2, K2. clear HE.
  apply bind_ok in H. destruct H as (pts & EP & H). apply bind_ok in H. destruct H as (mark & EM & H). apply ok_inj in H. subst P. cbn [e_points3 e_grid e_xlim3 e_ylim3 e_use3].
  rewrite M1, N1, M2, N2. cbn [fst snd]. split; [|split; [|split; [|split]]].
  - intros i s Hs. destruct (ls_groups3_spec _ _ _ _ EP) as (_ & N). destruct (N i s Hs) as (f & Ef & Eg). cbn [plus] in Ef. rewrite GF, (map_nth_error _ _ _ Hs) in Ef. injection Ef as <-. exact Eg.
  - intros s L Hin. apply in_flat_map in Hin. destruct Hin as (y & Hy & Hin). apply in_map_iff in Hin. destruct Hin as (x & E & Hx). injection E as <- <-. cbn [fst snd]. apply K1 in Hx. apply K2 in Hy. split; [apply life_spec; lra|]. unfold on_chart. cbn [fst snd]. lra.
  - intros x y Hx Hy. eexists. apply in_flat_map. exists y. split; [destruct Hy as [->| ->]; assumption|]. apply in_map_iff. exists x. split; [reflexivity|]. destruct Hx as [->| ->]; assumption.
  - intros s Hs. apply HA in Hs. unfold on_chart. cbn [fst snd]. split; [now apply B1|now apply B2].
  - intros u E. rewrite E in EM. apply bind_ok in EM. destruct EM as (c & _ & EM). apply ok_inj in EM. subst mark. eexists. split; [reflexivity|]. apply life_spec. specialize (Hpos u (or_intror E)). lra.
Qed.
Print Assumptions C140_surface.

Example C140_case : exists P, life_stress_plot (fun s => exp (1 / s)) [[3; 4]; [2]; [1]] [1; 2; 3] (Some (1 / 2)) false 0 = Ok P /\ falling (fun s => exp (1 / s)) /\ 0 < 1 / 2 <= rmax [1; 2; 3].
Proof.
  split with (x := mkLsPlot (map (fun s => (s, exp (1 / s))) (tl (linspace 0 (snd (stress_limits (Rmin (rmin [1; 2; 3]) (1 / 2)) (rmax [1; 2; 3])) * 10) 1000)))
    [[(1, 3); (1, 4)]; [(2, 2)]; [(3, 1)]] (Some [(1 / 2, - 10 ^ 20); (1 / 2, exp (1 / (1 / 2))); (0, exp (1 / (1 / 2)))])
    (stress_limits (Rmin (rmin [1; 2; 3]) (1 / 2)) (rmax [1; 2; 3])) (0, 12 / 10 * Rmax (exp (1 / fst (stress_limits (Rmin (rmin [1; 2; 3]) (1 / 2)) (rmax [1; 2; 3])))) (rmax [3; 4; 2; 1]))).
  split; [reflexivity|]. split.
  - intros x y Hx Hy. apply CIProofs.exp_mono. apply Rmult_le_compat_l; [lra|]. apply Rinv_le_contravar; lra.
  - pose proof (rmax_ge [1; 2; 3] 1 (or_introl eq_refl)). lra.
Qed.

Example C139_case kle fit sort noisy fit2P minimize diag : total_order kle -> sorts sort -> (forall est, diag est <> None) ->
  exists k r P, alt_check kle (Some LS_Eyring) demo_short = Ok k /\ alt_fit kle A_Exponential LS_Eyring noisy fit2P minimize diag demo_short = Ok r /\ grouped false k /\
    scale_ok LS_Eyring (a_params r) /\ fitter_prob_plot fit sort A_Exponential LS_Eyring k r = Ok P.
Proof.
  intros Ho HS HD. destruct (demo_short_fitted kle A_Exponential LS_Eyring noisy fit2P minimize diag Ho eq_refl HD) as (r & Hr).
  destruct (proj2 (checks_acceptable kle (Some LS_Eyring) demo_short Ho) demo_short_acceptable) as (k & Hk).
  pose proof (check_data_used _ _ _ _ Hk) as ((E1 & _ & E3 & E4 & _) & _). cbn [demo_short g_stress_1 g_censored] in E1, E3, E4.
  destruct (C73_single_partial kle (Some LS_Eyring) demo_short k Ho eq_refl Hk) as (_ & _ & HG & _). { rewrite E4. intros x []. }
  assert (k_use k = None) as HU.
  { destruct (alt_check_form kle (Some LS_Eyring) demo_short) as [(e & E & _)|(s1 & s2 & rc & c1 & c2 & keys & fg & cg & o & u & HU & HC & HO & Hu & HG2 & HM & E)]; [congruence|]. rewrite Hk in E. apply ok_inj in E. subst k. cbn [k_use]. cbn in Hu. congruence. }
  assert (k_stress_1 k = [10; 20; 30]) as ES by congruence. pose proof HG as (ND & HI & _).
  assert (forall s, In s (k_stresses k) -> In s [(10, 0); (20, 0); (30, 0)]) as HIn. { intros s Hs. apply HI in Hs. unfold failure_stresses, pairs_of in Hs. rewrite ES in Hs. exact Hs. }
  destruct (C139_made_partial fit sort kle A_Exponential LS_Eyring noisy fit2P minimize diag demo_short k r) as (P & HP); try assumption; try exact I.
  - intros s Hs. apply HIn in Hs. destruct Hs as [<-|[<-|[<-|[]]]]; cbn [fst]; lra.
  - intros u E. congruence.
  - rewrite HU. pose proof (NoDup_incl_length ND HIn) as L. cbn [length] in L. lia.
  - exists k, r, P. split; [exact Hk|]. split; [exact Hr|]. split; [exact HG|]. split; [exact I|exact HP].
Qed.
