(** Lemmas for C139 and C140. *)
From Coquelicot Require Import Coquelicot.
From Coq Require Import String.
From Coq Require Import List Arith Reals Bool Permutation Sorted Lra Lia.
From Verif Require Import Base RealFacts Gauss Ext RList RepairModel RepairProofs NonparModel NonparSpec NonparSpec2 NonparProofs NonparProofs5 RepairProofs3 DistModel CIModel CIProofs DistSpec DistProofs DistProofs3 RegProofs
  PlotModel PlotSpec PlotProofs PlotProps QQSpec InputModel FArgModel OtherModel ALTModel ALTSpec PPlotModel PPlotSpec PPlotProofs PPlotProps ALTPlotModel ALTPlotSpec.
Import ListNotations.
Open Scope R_scope.

Definition listed (rc : option (list R)) : list R := match rc with Some l => l | None => [] end.
(** The probability plot of one group. *)
Lemma group_plot_eq fit sort d f rc D : f <> [] -> dist_gamma D = 0 ->
  probability_plot fit sort (kind_of d) (group_args f rc D) =
  (let! xy := plotting_positions_unsorted None (sort (indexed (all_rows f (listed rc)))) in
   let! lims := probability_plot_xylims (axes_of (kind_of d) (Some D)) (1 / 10) (fst xy) (snd xy) in
   Ok (mkPlotted (Some (combine (fst xy) (snd xy))) (Some (without_gamma D, no_errors)) (fst lims) (snd lims) false)).
Proof.
  intros Hf HG. unfold probability_plot, group_args. cbn [p_failures p_right_censored p_fit_gamma p_fitted p_a p_CI p_show_fitted p_show_scatter p_downsample].
  destruct (length f =? 0)%nat eqn:E; [apply Nat.eqb_eq in E; destruct f; [congruence|discriminate]|]. rewrite andb_false_r.
  assert (choose_dist fit (kind_of d) (group_args f rc D) f rc = Ok ((D, no_errors), false)) as EC.
  { unfold choose_dist, group_args. cbn [p_CI p_fitted p_fit_gamma]. assert (Rleb (95 / 100) 0 || Rleb 1 (95 / 100) = false) as ->.
    { unfold Rleb. destruct (Rle_dec (95 / 100) 0); [lra|]. destruct (Rle_dec 1 (95 / 100)); [lra|]. reflexivity. }
    rewrite HG. destruct (Rlt_dec 0 0); [lra|]. now destruct (has_gamma (kind_of d)). }
  unfold group_args in EC.
  assert (forall l : list R, map (fun t : R => t) l = l) as MI by (intros l; apply map_id).
  destruct rc as [l|]; cbn [bind flagged orb listed]; rewrite EC; cbn [bind]; rewrite ?MI; destruct (plotting_positions_unsorted _ _) as [[x y]|e]; reflexivity.
Qed.
Lemma group_plot_empty fit sort d rc D : probability_plot fit sort (kind_of d) (group_args [] rc D) = Err ValueError.
Proof. reflexivity. Qed.
Lemma fitted_params_gamma d life shape : dist_gamma (fitted_params d life shape) = 0. Proof. now destruct d. Qed.
Lemma fitted_params_unshifted d life shape : without_gamma (fitted_params d life shape) = fitted_params d life shape. Proof. now destruct d. Qed.
Lemma fitted_params_distribution d life shape : fitted_params d life shape = alt_distribution d life shape. Proof. now destruct d. Qed.
Lemma at_use_distribution d life shape : at_use d life shape = alt_distribution d life shape. Proof. now destruct d. Qed.

Lemma positions_in01 f rc rows y : sorted_data f rc rows -> plotting_positions_unsorted None rows = Ok (f, y) -> forall v, In v y -> 0 < v < 1.
Proof.
  intros SD EP. destruct (plotting_positions_restores f _ _ rows f y (proj1 SD) EP) as (_ & L & xs & ys & ES & N).
  assert (a_value None < 1) as HA2 by (cbn; lra). destruct (plotting_positions_range _ _ _ _ HA2 ES) as [_ FY]. rewrite Forall_forall in FY.
  intros v Hv. apply In_nth_error in Hv. destruct Hv as (i & Hi). assert (i < length f)%nat as Li by (rewrite <- L; apply nth_error_Some; congruence).
  destruct (nth_error f i) as [t|] eqn:Et; [|apply nth_error_None in Et; lia].
  assert (In (i, (t, true)) rows) as Hin by (apply (Permutation_in _ (proj1 SD)), indexed_nth; now apply all_rows_nth_failure).
  apply in_split in Hin. destruct Hin as (pre & post & Er). destruct (N pre i t post Er) as [_ N2]. rewrite Hi in N2. symmetry in N2. apply nth_error_In in N2. now apply FY.
Qed.
Lemma item_ok {A} (l : list A) i x : item l i = Ok x <-> nth_error l i = Some x.
Proof. unfold item. destruct (nth_error l i); split; intros H; congruence. Qed.
Lemma colour_ok i c : colour i = Ok c <-> c = i /\ (i < color_cycle)%nat.
Proof. unfold colour. destruct (Nat.ltb_spec i color_cycle); split; intros H0; [injection H0 as <-; auto|destruct H0 as [-> _]; reflexivity|discriminate|destruct H0; lia]. Qed.
(** The censored items of group [i]. *)
Definition nth_group (cg : option (list (list R))) (i : nat) : list R := match cg with None => [] | Some g => nth i g [] end.

Section Groups.
  Variables (fit : kind -> bool -> list R -> option (list R) -> R -> result (dist * covs)) (sort : list (nat * row) -> list (nat * row)).
  Variables (d : alt_dist) (life : R * R -> R) (shape : R) (fg : list (list R)) (cg : option (list (list R))) (originals : list (option (R * R))).
  Hypothesis HS : sorts sort.
  Lemma draw_spec : forall stresses i x y gs, draw_groups fit sort d life shape fg cg originals i stresses = Ok (x, y, gs) ->
    length gs = length stresses /\ (stresses <> [] -> (i + length stresses <= color_cycle)%nat) /\ map b_colour gs = seq i (length stresses) /\
    (forall v, In v y -> 0 < v < 1) /\ length y = length x /\ (stresses <> [] -> x <> []) /\
    (forall t, In t x -> exists j f, (j < length stresses)%nat /\ nth_error fg (i + j) = Some f /\ In t f) /\
    forall j s, nth_error stresses j = Some s ->
      exists f o p rows yj, nth_error fg (i + j) = Some f /\ nth_error originals (i + j) = Some o /\ nth_error gs j = Some (mkGroup p (dashed d o) (i + j)) /\
        sorted_data f (nth_group cg (i + j)) rows /\ plotting_positions_unsorted None rows = Ok (f, yj) /\ length yj = length f /\ f <> [] /\
        d_points p = Some (combine f yj) /\ d_line p = Some (fitted_params d (life s) shape, no_errors) /\ incl (combine f yj) (combine x y).
  Proof.
    induction stresses as [|s rest IH]; intros i x y gs H.
    - cbn in H. injection H as <- <- <-. split; [reflexivity|]. split; [congruence|]. split; [reflexivity|]. split; [intros v []|]. split; [reflexivity|]. split; [congruence|]. split; [intros t []|]. intros [|j] s0 H0; discriminate.
    - cbn [draw_groups] in H. apply bind_ok in H. destruct H as (f & Ef & H). apply item_ok in Ef. apply bind_ok in H. destruct H as (rc & Er & H).
      assert (nth_group cg i = listed rc) as EN.
      { destruct cg as [g|]; cbn in Er |- *; [|now injection Er as <-]. apply bind_ok in Er. destruct Er as (l & El & Er). injection Er as <-. apply item_ok in El. cbn. now apply nth_error_nth. }
      apply bind_ok in H. destruct H as (xy & Exy & H). change (match rc with Some l => l | None => [] end) with (listed rc) in Exy.
      apply bind_ok in H. destruct H as (c & Ec & H). apply colour_ok in Ec. destruct Ec as [-> Hc].
      apply bind_ok in H. destruct H as (p & Ep & H). apply bind_ok in H. destruct H as (o & Eo & H). apply item_ok in Eo.
      apply bind_ok in H. destruct H as ([[x1 y1] g1] & Em & H). cbn [fst snd] in H. injection H as <- <- <-.
      destruct (IH _ _ _ _ Em) as (L1 & L2 & L3 & L4 & L5 & L6 & L7 & L8).
      assert (f <> []) as Hf by (intros ->; rewrite group_plot_empty in Ep; discriminate).
      rewrite (group_plot_eq fit sort d f rc _ Hf (fitted_params_gamma d (life s) shape)) in Ep. rewrite Exy in Ep. cbn [bind] in Ep.
      apply bind_ok in Ep. destruct Ep as (lims & _ & Ep). injection Ep as <-. rewrite fitted_params_unshifted.
      pose proof (HS f (listed rc)) as SD. destruct xy as [x0 y0]. cbn [fst snd].
      destruct (plotting_positions_restores f (listed rc) None _ x0 y0 (proj1 SD) Exy) as (-> & L & _).
      assert (forall l a b a' b' : list R, length a = length b -> incl (combine a b) (combine (a ++ a') (b ++ b')) /\ incl (combine a' b') (combine (a ++ a') (b ++ b'))) as HI.
      { clear. intros _. induction a as [|u a IH]; intros [|v b] a' b' E; try discriminate; cbn; [split; [intros z []|apply incl_refl]|]. destruct (IH b a' b' ltac:(now injection E)) as [A B]. split; [apply incl_cons; [now left|now apply incl_tl]|now apply incl_tl]. }
      destruct (HI [] f y0 x1 y1 (eq_sym L)) as [I1 I2].
      split; [cbn; now rewrite L1|]. split. { intros _. cbn. destruct rest as [|s' rest]; [cbn; lia|]. specialize (L2 ltac:(discriminate)). lia. }
      split. { cbn. now rewrite L3. }
      split. { intros v Hv. apply in_app_or in Hv. destruct Hv as [Hv|Hv]; [|now apply L4]. eapply positions_in01; eassumption. }
      split. { rewrite !app_length. lia. }
      split. { intros _. destruct f; [congruence|discriminate]. }
      split. { intros t Ht. apply in_app_or in Ht. destruct Ht as [Ht|Ht]; [exists 0%nat, f; rewrite Nat.add_0_r; split; [cbn; lia|auto]|]. destruct (L7 t Ht) as (j & f1 & A & B & C). exists (S j), f1. replace (i + S j)%nat with (S i + j)%nat by lia. split; [cbn; lia|auto]. }
      intros [|j] s0 H0.
      + cbn in H0. injection H0 as <-. rewrite Nat.add_0_r. exists f, o. eexists. exists (sort (indexed (all_rows f (listed rc)))), y0. rewrite EN.
        split; [exact Ef|]. split; [exact Eo|]. split; [reflexivity|]. split; [exact SD|]. split; [exact Exy|]. split; [exact L|]. split; [exact Hf|]. split; [reflexivity|]. split; [reflexivity|]. exact I1.
      + cbn in H0. destruct (L8 j s0 H0) as (f1 & o1 & p1 & rows1 & y2 & A & B & C & D & E & F & G & H & I & J). replace (i + S j)%nat with (S i + j)%nat by lia.
        exists f1, o1, p1, rows1, y2. cbn [nth_error]. repeat (split; [assumption|]). exact (incl_tran J I2).
  Qed.
  (** When the groups can be drawn. *)
  Lemma draw_ok : forall stresses i, (i + length stresses <= color_cycle)%nat -> (i + length stresses <= length fg)%nat -> (i + length stresses <= length originals)%nat ->
    (forall g, cg = Some g -> (i + length stresses <= length g)%nat) -> (forall f, In f fg -> f <> [] /\ Forall (fun t => 0 < t) f) ->
    exists r, draw_groups fit sort d life shape fg cg originals i stresses = Ok r.
  Proof.
    induction stresses as [|s rest IH]; intros i H1 H2 H3 H4 H5; [eexists; reflexivity|]. cbn [length] in *. cbn [draw_groups].
    destruct (nth_error fg i) as [f|] eqn:Ef; [|apply nth_error_None in Ef; lia]. rewrite (proj2 (item_ok fg i f) Ef). cbn [bind].
    assert (exists rc, match cg with Some g => let! l := item g i in Ok (Some l) | None => Ok None end = Ok rc) as (rc & ->).
    { destruct cg as [g|]; [|eexists; reflexivity]. destruct (nth_error g i) as [l|] eqn:El; [|apply nth_error_None in El; specialize (H4 g eq_refl); lia]. rewrite (proj2 (item_ok g i l) El). eexists. reflexivity. }
    cbn [bind]. change (match rc with Some l => l | None => [] end) with (listed rc). destruct (H5 f (nth_error_In _ _ Ef)) as [Hf Hp].
    destruct (unsorted_ok None f (listed rc) _ Hf I (HS f (listed rc))) as (y & Ey).
    assert (colour i = Ok i) as EC by (apply colour_ok; lia). destruct (plotting_positions_restores f (listed rc) None _ f y (proj1 (HS f (listed rc))) Ey) as (_ & L & _).
    destruct (nth_error originals i) as [o|] eqn:Eo; [|apply nth_error_None in Eo; lia].
    rewrite (group_plot_eq fit sort d f rc _ Hf (fitted_params_gamma d (life s) shape)). rewrite Ey. cbn [bind fst snd]. rewrite EC. cbn [bind].
    assert (y <> []) as Hy by (intros ->; destruct f; [congruence|discriminate]).
    destruct (proj2 (xylims_ok (axes_of (kind_of d) (Some (fitted_params d (life s) shape))) (1 / 10) f y Hf Hy)) as (lims & ->). { intros _ v Hv. rewrite Forall_forall in Hp. now apply Hp. }
    cbn [bind]. rewrite (proj2 (item_ok originals i o) Eo). cbn [bind]. destruct (IH (S i)) as ([[x1 y1] g1] & ->); try lia; [intros g Hg; specialize (H4 g Hg); lia|exact H5|]. eexists. reflexivity.
  Qed.
  Lemma draw_many : forall stresses i, (color_cycle < i + length stresses)%nat -> stresses <> [] -> forall r, draw_groups fit sort d life shape fg cg originals i stresses <> Ok r.
  Proof.
    intros stresses i H Hn [[x y] gs] E. apply draw_spec in E. destruct E as (_ & E & _). specialize (E Hn). lia.
  Qed.
  Lemma draw_index : forall stresses i, (i <= color_cycle)%nat -> (color_cycle < i + length stresses)%nat -> (i + length stresses <= length fg)%nat -> (i + length stresses <= length originals)%nat ->
    (forall g, cg = Some g -> (i + length stresses <= length g)%nat) -> (forall f, In f fg -> f <> [] /\ Forall (fun t => 0 < t) f) ->
    draw_groups fit sort d life shape fg cg originals i stresses = Err IndexError.
  Proof.
    induction stresses as [|s rest IH]; intros i H0 H1 H2 H3 H4 H5; [cbn [length] in *; lia|]. cbn [length] in *. cbn [draw_groups].
    destruct (nth_error fg i) as [f|] eqn:Ef; [|apply nth_error_None in Ef; lia]. rewrite (proj2 (item_ok fg i f) Ef). cbn [bind].
    assert (exists rc, match cg with Some g => let! l := item g i in Ok (Some l) | None => Ok None end = Ok rc) as (rc & ->).
    { destruct cg as [g|]; [|eexists; reflexivity]. destruct (nth_error g i) as [l|] eqn:El; [|apply nth_error_None in El; specialize (H4 g eq_refl); lia]. rewrite (proj2 (item_ok g i l) El). eexists. reflexivity. }
    cbn [bind]. change (match rc with Some l => l | None => [] end) with (listed rc). destruct (H5 f (nth_error_In _ _ Ef)) as [Hf Hp].
    destruct (unsorted_ok None f (listed rc) _ Hf I (HS f (listed rc))) as (y & Ey). rewrite Ey. cbn [bind fst snd].
    destruct (Nat.eq_dec i color_cycle) as [->|Ne]; [unfold colour; now rewrite Nat.ltb_irrefl|].
    assert (colour i = Ok i) as EC by (apply colour_ok; lia). destruct (plotting_positions_restores f (listed rc) None _ f y (proj1 (HS f (listed rc))) Ey) as (_ & L & _).
    destruct (nth_error originals i) as [o|] eqn:Eo; [|apply nth_error_None in Eo; lia].
    rewrite (group_plot_eq fit sort d f rc _ Hf (fitted_params_gamma d (life s) shape)). rewrite Ey. cbn [bind fst snd]. rewrite EC. cbn [bind].
    assert (y <> []) as Hy by (intros ->; destruct f; [congruence|discriminate]).
    destruct (proj2 (xylims_ok (axes_of (kind_of d) (Some (fitted_params d (life s) shape))) (1 / 10) f y Hf Hy)) as (lims & ->). { intros _ v Hv. rewrite Forall_forall in Hp. now apply Hp. }
    cbn [bind]. rewrite (proj2 (item_ok originals i o) Eo). cbn [bind]. rewrite (IH (S i)); try lia; [reflexivity|intros g Hg; specialize (H4 g Hg); lia|exact H5].
  Qed.
End Groups.
