(** Lemmas for C131. *)
From Coquelicot Require Import Coquelicot.
From Coq Require Import String.
From Coq Require Import List Arith Reals Bool Permutation Sorted Lra Lia.
From Verif Require Import Base RealFacts Gauss Ext RList RepairModel NonparModel NonparSpec NonparSpec2 NonparProofs NonparProofs5 RepairProofs3 DistModel CIModel DistSpec DistProofs DistProofs3 RegProofs
  PlotModel PlotSpec PlotProofs PlotProps QQSpec InputModel FArgModel PPlotModel PPlotSpec.
Import ListNotations.
Open Scope R_scope.

(** ** Shifted data *)
Definition move (h : R -> R) (r : nat * row) : nat * row := (fst r, retime_row h (snd r)).
Lemma indexed_move h rows : indexed (map (retime_row h) rows) = map (move h) (indexed rows).
Proof.
  unfold indexed. rewrite map_length. generalize 0%nat. induction rows as [|r rows IH]; intros k; [reflexivity|]. cbn [length seq map combine]. now rewrite IH.
Qed.
Lemma move_sorted h rows : increasing h ->
  StronglySorted (fun r s : nat * row => fst (snd r) <= fst (snd s)) (map (move h) rows) -> StronglySorted (fun r s : nat * row => fst (snd r) <= fst (snd s)) rows.
Proof.
  intros Hh. induction rows as [|r rows IH]; [constructor|]. cbn [map]. intros H. inversion H as [|? ? H1 H2]; subst. constructor; [now apply IH|].
  rewrite Forall_map in H2. revert H2. apply Forall_impl. intros s. cbn. apply (incr_le h Hh).
Qed.
Lemma sorted_data_back h f rc rows' : increasing h -> sorted_data (map h f) (map h rc) rows' -> exists rows, rows' = map (move h) rows /\ sorted_data f rc rows.
Proof.
  intros Hh [P S]. rewrite all_rows_retime, indexed_move in P. apply Permutation_sym, Permutation_map_inv in P. destruct P as (rows & -> & P).
  exists rows. split; [reflexivity|]. split; [exact P|]. now apply move_sorted in S.
Qed.
Lemma unsorted_move h a rows : plotting_positions_unsorted a (map (move h) rows) = rmap (fun xy => (map h (fst xy), snd xy)) (plotting_positions_unsorted a rows).
Proof.
  unfold plotting_positions_unsorted. destruct (check_a a) as [v|e]; [|reflexivity]. cbn [bind].
  replace (map snd (map snd (map (move h) rows))) with (map snd (map snd rows)).
  2:{ rewrite !map_map. apply map_ext. now intros [i [t c]]. }
  destruct (positions v (map snd (map snd rows))) as [y|e]; [|reflexivity]. cbn [bind rmap].
  assert (filter (fun p : nat * row => snd (snd p)) (map (move h) rows) = map (move h) (filter (fun p => snd (snd p)) rows)) as ->.
  { induction rows as [|[i [t c]] rows IH]; [reflexivity|]. cbn. destruct c; cbn; now rewrite IH. }
  set (fr := filter _ rows).
  assert (combine (map fst (map (move h) fr)) (combine (map (fun p : nat * row => fst (snd p)) (map (move h) fr)) y)
          = map (fun q => (fst q, (h (fst (snd q)), snd (snd q)))) (combine (map fst fr) (combine (map (fun p => fst (snd p)) fr) y))) as ->.
  { clearbody fr. revert y. induction fr as [|r fr IH]; intros y; [reflexivity|]. destruct y as [|v0 y]; [reflexivity|]. cbn. f_equal. apply IH. }
  rewrite (isort_map (fun q : nat * (R * R) => (fst q, (h (fst (snd q)), snd (snd q)))) idx_leb idx_leb) by reflexivity.
  cbn [fst snd]. rewrite !map_map. reflexivity.
Qed.
(** The positions of shifted data are those of the data. *)
Lemma positions_shifted sort h f rc a xy : increasing h -> sorts sort -> plotting_positions_unsorted a (sort (indexed (all_rows (map h f) (map h rc)))) = Ok xy ->
  exists rows y, sorted_data f rc rows /\ plotting_positions_unsorted a rows = Ok (f, y) /\ xy = (map h f, y) /\ length y = length f.
Proof.
  intros Hh HS H. destruct (sorted_data_back h f rc _ Hh (HS (map h f) (map h rc))) as (rows & E & D). rewrite E, unsorted_move in H.
  destruct (plotting_positions_unsorted a rows) as [[x y]|e] eqn:EP; [|discriminate]. cbn in H. injection H as <-.
  destruct (plotting_positions_restores f rc a rows x y (proj1 D) EP) as (-> & L & _). now exists rows, y.
Qed.
Lemma unsorted_ok a f rc rows : f <> [] -> (match a with Some v => 0 <= v < 1 | None => True end) -> sorted_data f rc rows -> exists y, plotting_positions_unsorted a rows = Ok (f, y).
Proof.
  intros Hf Ha D. assert (exists v, check_a a = Ok v /\ 0 <= v < 1) as (v & EA & HV).
  { destruct a as [v|]; cbn; [exists v|exists (3 / 10); split; [reflexivity|lra]]. unfold Rltb. destruct (Rlt_dec v 0); [lra|]. destruct (Rlt_dec 1 v); [lra|]. split; [reflexivity|lra]. }
  assert (exists y, positions v (map snd (map snd rows)) = Ok y) as (y & EP).
  { unfold positions, adjusted_ranks. assert (In true (map snd (map snd rows))) as HT.
    { destruct f as [|t f]; [congruence|]. apply in_map_iff. exists (t, true). split; [reflexivity|]. apply in_map_iff. exists (0%nat, (t, true)). split; [reflexivity|].
      apply (Permutation_in _ (proj1 D)). now left. }
    assert (exists n, leading_cens (map snd (map snd rows)) = Ok n) as (n & EL).
    { induction (map snd (map snd rows)) as [|c l IH]; [destruct HT|]. destruct c; [now exists 0%nat|]. destruct HT as [HT|HT]; [discriminate|]. destruct (IH HT) as (n & En). exists (S n). cbn. now rewrite En. }
    assert (1 <= length (map snd (map snd rows)))%nat as HL by (destruct (map snd (map snd rows)); [destruct HT|simpl; lia]).
    apply le_INR in HL. change (INR 1) with 1 in HL.
    rewrite EL. cbn [bind]. destruct (0 <? n)%nat; cbn [bind]; (destruct (Req_EM_T _ 0); [lra|eexists; reflexivity]). }
  unfold plotting_positions_unsorted. rewrite EA. cbn [bind]. rewrite EP. cbn [bind].
  match goal with |- exists z, Ok (?u, ?w) = _ => assert (plotting_positions_unsorted a rows = Ok (u, w)) as E2 end.
  { unfold plotting_positions_unsorted. rewrite EA. cbn [bind]. rewrite EP. reflexivity. }
  destruct (plotting_positions_restores f rc a rows _ _ (proj1 D) E2) as (E3 & _). rewrite E3. now eexists.
Qed.

Lemma without_gamma_unshifted d : without_gamma d = unshifted d. Proof. now destruct d. Qed.
Lemma dist_gamma_location d : dist_gamma d = location d. Proof. now destruct d. Qed.
Lemma shift_increasing k g : increasing (shift_of k g).
Proof. intros x y H. unfold shift_of. destruct k; lra. Qed.
Lemma id_increasing : increasing (fun t => t). Proof. now intros x y H. Qed.

(** ** What a successful call did *)
Lemma choose_inv fit k a f rc d c b : choose_dist fit k a f rc = Ok ((d, c), b) ->
  0 < p_CI a < 1 /\ fitted fit k a f d c /\ (proper_fits fit a k -> valid d /\ of_kind k d /\ (b = false -> location d = 0)).
Proof.
  unfold choose_dist, fitted, proper_fits, Rleb. destruct (Rle_dec (p_CI a) 0); [discriminate|]. destruct (Rle_dec 1 (p_CI a)); [discriminate|]. cbn [orb].
  intros H. split; [lra|]. destruct (p_fitted a) as [[d0 c0]|] eqn:EF.
  - assert (d0 = d /\ c0 = c /\ (has_gamma k = true -> b = false -> ~ 0 < dist_gamma d) /\ (has_gamma k = false -> b = false)) as (-> & -> & HB & HB2).
    { destruct (has_gamma k); [|injection H as -> -> <-; repeat split; intros; congruence].
      destruct (Rlt_dec 0 (dist_gamma d0)); [injection H as -> -> <-; repeat split; intros; congruence|].
      destruct (p_fit_gamma a); try discriminate; injection H as -> -> <-; repeat split; intros; congruence. }
    split; [reflexivity|]. intros [_ HP]. destruct (HP d c eq_refl) as [V K]. split; [exact V|]. split; [exact K|]. intros ->.
    destruct (has_gamma k) eqn:HG.
    + specialize (HB eq_refl eq_refl). rewrite dist_gamma_location in HB. destruct d; cbn in *; lra.
    + destruct k; try discriminate; destruct d; try destruct K; reflexivity.
  - assert (exists located, fit k located f rc (p_CI a) = Ok (d, c) /\ (b = false -> located = false)) as (lo & E & HB).
    { destruct (has_gamma k); [|apply bind_ok in H; destruct H as ([d' c'] & E & H); injection H as -> -> <-; now exists false].
      destruct (p_fit_gamma a); try discriminate; apply bind_ok in H; destruct H as ([d' c'] & E & H); injection H as -> -> <-; [exists true|exists false]; split; congruence. }
    split; [now exists lo, rc|]. intros [HP _]. destruct (HP _ _ _ _ _ _ E) as (V & K & L). split; [exact V|]. split; [exact K|]. intros Hb. now apply L, HB.
Qed.
Definition rc_opt (a : plot_args) : option (list R) := match p_right_censored a with D_seq l => Some l | _ => None end.
Lemma rc_opt_shift a (h : R -> R) : match rc_opt a with Some l => map h l | None => [] end = map h (censored a).
Proof. unfold rc_opt, censored. now destruct (p_right_censored a). Qed.
Lemma plot_inv fit sort k a r : sorts sort -> probability_plot fit sort k a = Ok r ->
  exists f chosen h rows y,
    p_failures a = D_seq f /\ f <> [] /\ (p_fitted a = None -> (minimum_failures k <= length f)%nat) /\ p_right_censored a <> D_other /\
    (if flagged (p_show_fitted a) || always_fitted k then exists c, choose_dist fit k a f (rc_opt a) = Ok c /\ chosen = Some c else chosen = None) /\
    h = match chosen with Some ((d, _), true) => shift_of k (dist_gamma d) | _ => fun t => t end /\
    sorted_data f (censored a) rows /\ plotting_positions_unsorted (p_a a) rows = Ok (f, y) /\ length y = length f /\
    (if flagged (p_show_scatter a) then exists s, xy_downsample (map h f) y (p_downsample a) 1000 = Ok s /\ d_points r = Some (combine (fst s) (snd s)) else d_points r = None) /\
    d_line r = (if flagged (p_show_fitted a) then option_map (fun c => (without_gamma (fst (fst c)), snd (fst c))) chosen else None) /\
    probability_plot_xylims (axes_of k (option_map (fun c => fst (fst c)) chosen)) (1 / 10) (map h f) y = Ok (d_xlim r, d_ylim r) /\
    d_minus_gamma r = match chosen with Some (_, b) => b | None => false end.
Proof.
  intros HS H. unfold probability_plot in H. destruct (p_failures a) as [f| |] eqn:EF; try discriminate.
  destruct (length f =? 0)%nat eqn:E0; [discriminate|]. apply Nat.eqb_neq in E0.
  match type of H with (if ?b then _ else _) = _ => destruct b eqn:E1; [discriminate|] end.
  apply bind_ok in H. destruct H as (rc & ER & H). assert (rc = rc_opt a /\ p_right_censored a <> D_other) as (-> & HR).
  { unfold rc_opt. destruct (p_right_censored a); try discriminate; injection ER as <-; split; congruence. }
  apply bind_ok in H. destruct H as (chosen & EC & H). cbv zeta in H.
  apply bind_ok in H. destruct H as (xy & EX & H). apply bind_ok in H. destruct H as (pts & EPt & H). apply bind_ok in H. destruct H as ([xl yl] & EL & H). injection H as <-.
  set (h := match chosen with Some ((d, _), true) => shift_of k (dist_gamma d) | _ => fun t => t end) in *. rewrite rc_opt_shift in EX.
  assert (increasing h) as Hh. { unfold h. destruct chosen as [[[d c] [|]]|]; [apply shift_increasing|apply id_increasing|apply id_increasing]. }
  destruct (positions_shifted sort h f (censored a) _ _ Hh HS EX) as (rows & y & D & EP & -> & L). cbn [fst snd] in EPt, EL.
  exists f, chosen, h, rows, y. split; [reflexivity|]. split; [intros ->; now apply E0|]. split.
  { intros EN. rewrite EN, andb_true_r in E1. apply Nat.ltb_ge in E1. exact E1. }
  split; [exact HR|]. split.
  { destruct (flagged (p_show_fitted a) || always_fitted k); [|now injection EC as <-]. apply bind_ok in EC. destruct EC as (c & E & EC). injection EC as <-. now exists c. }
  split; [reflexivity|]. split; [exact D|]. split; [exact EP|]. split; [exact L|]. cbn [d_points d_line d_xlim d_ylim d_minus_gamma]. split.
  { destruct (flagged (p_show_scatter a)); [|now injection EPt as <-]. apply bind_ok in EPt. destruct EPt as (s & E & EPt). injection EPt as <-. now exists s. }
  split; [reflexivity|]. split; [exact EL|reflexivity].
Qed.
