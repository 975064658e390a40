(** Lemmas for the fitters of combined Weibull models. *)
From Coquelicot Require Import Coquelicot.
From Coq Require Import String.
From Coq Require Import List Arith ZArith Reals Lra Lia Bool Permutation Sorted.
From Verif Require Import Base RealFacts Ext Gauss RList ConvertModel DistModel NonparModel NonparSpec NonparProofs NonparProofs4 NonparProps QQSpec CIModel CISpec CIProofs SelModel SelSpec SelProofs InputModel CombModel CombSpec FitModel FitSpec FitProofs FitProps RegModel RegProofs FArgModel FArgSpec FArgProofs FArgProps PlotModel GroupModel PPlotSpec PPlotProofs FullFitModel FullFitSpec FullFitProofs FullFitProps FullFitProps2 FullFitProps3 SpecialModel SpecialSpec.
Import ListNotations.
Open Scope R_scope.

(** ** The data *)
Lemma neqb_iff t : Rneqb t 0 = true <-> t <> 0.
Proof. unfold Rneqb. destruct (Req_EM_T t 0); split; congruence. Qed.
Lemma is_zero_iff t : is_zero t = true <-> t = 0.
Proof. unfold is_zero, Rneqb. destruct (Req_EM_T t 0); cbn; split; congruence. Qed.
Lemma sublist_unique P (f : R -> bool) l m m' : (forall x, f x = true <-> P x) -> sublist_of P l m -> sublist_of P l m' -> m = m'.
Proof. intros HP H H'. apply (filter_sublist P f HP) in H, H'. congruence. Qed.
Lemma takes_zeros_iff d : takes_zeros d = true <-> with_zeros d.
Proof. unfold with_zeros. destruct d; cbn; intuition congruence. Qed.
Lemma keep_combined d t : combined d -> (keep d t <-> t <> 0).
Proof. intros [-> |[-> |[-> |[-> | ->]]]]; unfold keep, signed; intuition congruence. Qed.
Lemma sublist_ext (P Q : R -> Prop) l m : (forall x, P x <-> Q x) -> sublist_of P l m -> sublist_of Q l m.
Proof. intros H. induction 1; constructor; try apply H; auto; rewrite <- H; assumption. Qed.
Lemma sublist_in P l m x : sublist_of P l m -> In x m -> In x l /\ P x.
Proof. induction 1 as [|y l m Hy H IH|y l m Hy H IH]; intros Hx; [destruct Hx| |]; cbn. - destruct Hx as [-> |Hx]; [auto|]. destruct (IH Hx); auto. - destruct (IH Hx); auto. Qed.
Lemma sublist_filter (P Q : R -> Prop) (f : R -> bool) l m : (forall x, f x = true <-> Q x) -> (forall x, P x <-> Q x) -> sublist_of P (filter f l) m -> sublist_of P l m.
Proof.
  intros HQ HPQ. revert m. induction l as [|x l IH]; intros m H; cbn in H; [exact H|]. destruct (f x) eqn:E.
  - inversion H; subst; [constructor; auto|constructor; auto].
  - apply so_drop; [|auto]. intros HP. apply HPQ, HQ in HP. congruence.
Qed.
Lemma zeros_length raw zeros F : sublist_of (fun t => t = 0) raw zeros -> sublist_of (fun t => t <> 0) raw F -> length raw = (length zeros + length F)%nat.
Proof.
  intros Hz. revert F. induction Hz as [|x l m E H IH|x l m E H IH]; intros F HF; inversion HF; subst; cbn.
  - reflexivity.
  - congruence.
  - now rewrite (IH _ H4).
  - rewrite (IH m0) by assumption. lia.
  - exfalso. apply H2. exact E.
Qed.

(** ** Johnson's ranks: the j-th failure has at least rank j. *)
Lemma rank_loop_count n codes : forall prev j r, prev + INR (length codes) <= INR n -> nth_error (rank_loop n prev (failure_reverse_i codes)) j = Some r -> prev + INR (S j) <= r.
Proof.
  induction codes as [|c codes IH]; intros prev j r H Hj; [destruct j; discriminate Hj|]. cbn [length] in H. rewrite S_INR in H. pose proof (pos_INR (length codes)) as Hp.
  destruct c; cbn [failure_reverse_i] in Hj; [|apply IH; [lra|exact Hj]]. cbn [rank_loop] in Hj. rewrite S_INR in Hj.
  set (L := INR (length codes)) in *. set (q := prev + _) in Hj.
  assert (prev + 1 <= q) as H1.
  { unfold q. apply Rplus_le_compat_l. apply Rmult_le_reg_r with (1 + (L + 1)); [lra|]. unfold Rdiv. rewrite Rmult_assoc, Rinv_l by lra. lra. }
  assert (q + L <= INR n) as H2.
  { apply Rmult_le_reg_r with (1 + (L + 1)); [lra|]. unfold q.
    replace ((prev + (INR n + 1 - prev) / (1 + (L + 1)) + L) * (1 + (L + 1))) with ((prev + L) * (L + 2) + (INR n + 1 - prev)) by (field; lra).
    assert (0 <= (INR n - prev - L - 1) * (L + 1)) by (apply Rmult_le_pos; lra). nra. }
  destruct j as [|j]; cbn [nth_error] in Hj; [injection Hj as <-; cbn [INR]; lra|]. specialize (IH q j r H2 Hj). rewrite !S_INR in *. lra.
Qed.
Lemma position_count a rows x y j p : a_value a < 1 -> plotting_positions_sorted a rows = Ok (x, y) -> nth_error y j = Some p ->
  (INR (S j) - a_value a) / (INR (length rows) + 1 - 2 * a_value a) <= p.
Proof.
  intros H1 H Hj. apply sorted_inv in H as (Ha & -> & H). apply positions_inv in H as (Hn & Hd & ->). rewrite ?(map_length snd rows) in *.
  rewrite nth_error_map in Hj. destruct (nth_error _ j) as [r|] eqn:Er; [|discriminate Hj]. cbn in Hj. injection Hj as <-.
  apply rank_loop_count in Er; [|rewrite map_length; lra]. rewrite Rplus_0_l in Er.
  assert (1 <= INR (length rows)) by (apply (le_INR 1); rewrite nf_map in Hn; unfold n_failed in Hn; destruct rows; simpl in *; lia).
  unfold Rdiv. apply Rmult_le_compat_r; [left; apply Rinv_0_lt_compat; lra|lra].
Qed.
Lemma last_failed (rows : list (nat * NonparModel.row)) : (0 < n_failed (map snd rows))%nat ->
  exists pre i t post, rows = pre ++ (i, (t, true)) :: post /\ n_failed (map snd rows) = S (n_failed (map snd pre)).
Proof.
  induction rows as [|[i [t c]] rows IH]; [cbn; lia|]. intros H. destruct (Nat.eq_dec (n_failed (map snd rows)) 0) as [E|E].
  - destruct c; [|cbn in H; unfold n_failed in *; lia]. exists [], i, t, rows. split; [reflexivity|]. unfold n_failed in *. cbn. now rewrite E.
  - destruct IH as (pre & i' & t' & post & -> & E'); [lia|]. exists ((i, (t, c)) :: pre), i', t', post. split; [reflexivity|]. unfold n_failed in *. cbn. destruct c; cbn; rewrite E'; reflexivity.
Qed.
Lemma fold_max_ge (l : list R) y : forall x, In x (y :: l) -> x <= fold_right Rmax y l.
Proof. induction l as [|z l IH]; intros x [<- |Hx]; cbn; [lra|destruct Hx| |]. - eapply Rle_trans; [apply IH; now left|apply Rmax_r]. - destruct Hx as [<- |Hx]; [apply Rmax_l|eapply Rle_trans; [apply IH; now right|apply Rmax_r]]. Qed.
Lemma fold_max_in (l : list R) y : In (fold_right Rmax y l) (y :: l).
Proof. induction l as [|z l IH]; [now left|]. cbn [fold_right]. unfold Rmax at 1. destruct (Rle_dec _ _); [destruct IH as [E|E]; [left; exact E|right; now right]|right; now left]. Qed.
Lemma all_rows_failed f rc : n_failed (all_rows f rc) = length f.
Proof.
  unfold n_failed, all_rows. rewrite filter_app, app_length. assert (forall l : list R, length (filter (@snd R bool) (map (fun t => (t, true)) l)) = length l) as -> by (induction l as [|u l IH]; cbn; congruence).
  assert (forall l : list R, filter (@snd R bool) (map (fun t => (t, false)) l) = []) as -> by (induction l as [|u l IH]; cbn; congruence). cbn. lia.
Qed.
Lemma last_position_range sort F C v : PPlotSpec.sorts sort -> last_position sort F C = Ok v ->
  (INR (length F) - 3 / 10) / (INR (length F + length C) + 4 / 10) <= v < 1 /\ 0 < v.
Proof.
  intros HS H. unfold last_position in H. apply bind_ok in H. destruct H as ((x, y) & HX & H). destruct (HS F C) as [P _]. cbn [fst snd] in H.
  destruct (C11_unsorted_positions _ _ _ _ _ _ P HX) as (_ & HL & xs & ys & HY & HN).
  assert (Permutation (all_rows F C) (map snd (sort (indexed (all_rows F C))))) as P2.
  { apply (Permutation_map snd) in P. rewrite <- P. rewrite indexed_snd. reflexivity. }
  assert (is_sorting_of (all_rows F C) (map snd (sort (indexed (all_rows F C))))) as HSort.
  { split; [exact P2|]. destruct (HS F C) as [_ HS2]. apply (StronglySorted_map _ (fun r s => fst r <= fst s) snd _ (fun a b Hab => Hab) HS2). }
  destruct (plotting_positions_range None _ _ _ ltac:(cbn; lra) HY) as [_ HR].
  assert (n_failed (map snd (sort (indexed (all_rows F C)))) = length F) as EF by (rewrite <- (n_failed_perm _ _ P2); apply all_rows_failed).
  assert (length (map snd (sort (indexed (all_rows F C)))) = (length F + length C)%nat) as EL by (rewrite <- (Permutation_length P2); unfold all_rows; rewrite app_length, !map_length; reflexivity).
  destruct y as [|y0 yr]; [discriminate H|]. apply Ok_inj in H. cbn [fst snd] in H.
  assert (forall z, In z (y0 :: yr) -> 0 < z < 1) as HB.
  { intros z Hz. apply In_nth_error in Hz. destruct Hz as (i & Hi).
    assert (i < length F)%nat as Hlt by (rewrite <- HL; apply nth_error_Some; congruence).
    destruct (nth_error F i) as [t|] eqn:ET; [|apply nth_error_None in ET; lia].
    pose proof ET as ET'. apply (all_rows_nth_failure F C), indexed_nth in ET'. apply (Permutation_in _ P) in ET'. apply in_split in ET'. destruct ET' as (pre & post & E).
    destruct (HN pre i t post E) as [_ E2]. rewrite Hi in E2. symmetry in E2. apply nth_error_In in E2. rewrite Forall_forall in HR. now apply HR. }
  destruct (last_failed (sort (indexed (all_rows F C)))) as (pre & i & t & post & E & EN); [rewrite EF; cbn in HL; lia|].
  destruct (HN pre i t post E) as [Hf E2]. rewrite EF in EN.
  assert (i < length (y0 :: yr))%nat as Hlt by (rewrite HL; apply nth_error_Some; congruence).
  destruct (nth_error (y0 :: yr) i) as [p|] eqn:EP; [|apply nth_error_None in EP; lia]. symmetry in E2.
  pose proof (position_count None _ _ _ _ _ ltac:(cbn; lra) HY E2) as G. rewrite <- EN, EL in G. cbn [a_value] in G.
  pose proof (fold_max_ge yr y0 p (nth_error_In _ _ EP)) as G2. pose proof (HB _ (fold_max_in yr y0)) as G3. subst v. split; [|lra]. split; [|lra].
  pose proof (pos_INR (length F + length C)). eapply Rle_trans; [|exact G2]. eapply Rle_trans; [|exact G]. right. field; repeat split; lra.
Qed.

(** ** What a fitter that returned did *)
Section Oracles.
  Context (ls : dname -> option rr -> option R -> list R -> list R -> result (list R))
          (minimize : list (option R * option R) -> opt -> (list R -> R) -> list R -> bool * list R)
          (inv : (list R -> R) -> list R -> option (nat -> nat -> R))
          (sort : list (nat * NonparModel.row) -> list (nat * NonparModel.row))
          (gj : gamma_jac) (kde : list R -> R).
  Notation fit_special := (fit_special ls minimize inv sort gj kde).

  Lemma special_is d a r zeros shown F C : combined d -> data_of d a zeros shown F C -> fit_special d a = Ok r ->
    exists raw k g,
      a_failures a = D_seq raw /\ fitters_input_checking d (special_args d a raw) = Ok k /\ i_failures k = F /\ i_right_censored k = C /\
      (if takes_zeros d then filter is_zero raw else []) = zeros /\ (if takes_zeros d then raw else F) = shown /\
      let f p := LL (special_model d p) zeros F C in
      special_guess ls minimize inv sort gj kde d (i_optimizer k) (i_CI k) shown zeros F C = Ok g /\
      maximise minimize (special_bounds d) f (i_optimizer k) g = Ok (s_params r, s_optimizer r) /\
      fit_limits d false (i_CI k) (s_params r) (option_map (fun m => map (fun i => m i i) (seq 0 (length (special_bounds d)))) (inv f (s_params r))) (s_optimizer r) = Ok (s_limits r) /\
      s_distribution r = distribution (special_model d (s_params r)) /\
      s_gof r = goodness (Z.of_nat (length shown + length C)) (Z.of_nat (k_of (special_model d (s_params r)) false)) (2 * f (s_params r)) /\
      exists x y c, plotting_positions_unsorted None (sort (indexed (all_rows shown C))) = Ok (x, y) /\ fitted_CDF (s_distribution r) x = Ok c /\
        anderson_darling c (if takes_zeros d then zeros_at (ZI_of d (s_params r)) x y else y) = Ok (s_AD r).
  Proof.
    intros HD (raw & rc & E1 & E2 & HF & HC & HZ & HN) H. unfold SpecialModel.fit_special in H. rewrite E1 in H. apply bind_ok in H. destruct H as (k & HK & H). cbv zeta in H.
    assert (i_failures k = F /\ i_right_censored k = C) as [EF EC].
    { pose proof HK as HK'. apply C129_accepts in HK'. destruct HK' as (f & rc' & n & Ef & Erc & _ & Hf & Hrc & _). unfold special_args in *. cbn [a_failures a_right_censored] in *.
      assert (rc' = rc) as -> by (destruct Erc as [E|[E ->]]; destruct E2 as [E'|[E' ->]]; congruence).
      assert ((if takes_zeros d then filter (fun t => Rneqb t 0) raw else raw) = f) as <- by congruence. clear Ef Erc.
      split; [|eapply (sublist_unique _ _ rc); [exact neqb_iff| |exact HC]; apply (sublist_ext (keep d)); [intros t; now apply keep_combined|exact Hrc]].
      eapply (sublist_unique _ _ raw); [exact neqb_iff| |exact HF]. apply (sublist_ext (keep d)); [intros t; now apply keep_combined|].
      destruct (takes_zeros d); [|exact Hf]. eapply sublist_filter; [exact neqb_iff| |exact Hf]. intros t. now apply keep_combined. }
    assert ((if takes_zeros d then filter is_zero raw else []) = zeros /\ (if takes_zeros d then raw else F) = shown) as [EZ ES].
    { destruct (takes_zeros d) eqn:ET.
      - destruct (HZ (proj1 (takes_zeros_iff d) ET)) as [-> Hz]. split; [|reflexivity]. now apply (filter_sublist _ is_zero is_zero_iff).
      - destruct HN as [-> ->]; [rewrite <- takes_zeros_iff; congruence|]. split; reflexivity. }
    rewrite EF, EC, EZ, ES in H. apply bind_ok in H. destruct H as (g & HG & H). apply bind_ok in H. destruct H as ((p, o) & HM & H). cbn [fst snd] in H.
    apply bind_ok in H. destruct H as (rows & HL & H). apply bind_ok in H. destruct H as ((x, y) & HX & H). cbn [fst snd] in H. apply bind_ok in H. destruct H as (c & Hc & H).
    apply bind_ok in H. destruct H as (ad & HA & H). apply Ok_inj in H. subst r. exists raw, k, g. cbv zeta. cbn [s_params s_optimizer s_limits s_distribution s_gof s_AD].
    repeat (split; [assumption|]). split; [reflexivity|]. split; [reflexivity|]. exists x, y, c. auto.
  Qed.
  Lemma special_data d a r : combined d -> fit_special d a = Ok r -> exists zeros shown F C, data_of d a zeros shown F C /\ Forall (Rlt 0) F /\ Forall (Rlt 0) C.
  Proof.
    intros HD H. unfold SpecialModel.fit_special in H. destruct (a_failures a) as [raw| |] eqn:E1; try discriminate H. apply bind_ok in H. destruct H as (k & HK & _).
    apply C129_accepts in HK. destruct HK as (f & rc & n & Ef & Erc & HR & Hf & Hrc & _). unfold special_args in *. cbn [a_failures a_right_censored] in *.
    assert ((if takes_zeros d then filter (fun t => Rneqb t 0) raw else raw) = f) as <- by congruence. clear Ef.
    exists (if takes_zeros d then filter is_zero raw else []), (if takes_zeros d then raw else i_failures k), (i_failures k), (i_right_censored k). split.
    - exists raw, rc. split; [exact E1|]. split; [exact Erc|]. split; [|split].
      + apply (sublist_ext (keep d)); [intros t; now apply keep_combined|]. destruct (takes_zeros d); [|exact Hf]. eapply sublist_filter; [exact neqb_iff| |exact Hf]. intros t. now apply keep_combined.
      + apply (sublist_ext (keep d)); [intros t; now apply keep_combined|exact Hrc].
      + split; intros HW.
        * apply takes_zeros_iff in HW. rewrite HW. split; [reflexivity|]. now apply (filter_sublist _ is_zero is_zero_iff).
        * assert (takes_zeros d = false) as -> by (apply not_true_iff_false; rewrite takes_zeros_iff; exact HW). split; reflexivity.
    - rewrite Forall_forall in HR. assert (forall t, FArgSpec.in_range d t -> keep d t -> 0 < t) as G.
      { intros t [HS|[H0 _]] HKe; apply (keep_combined d t HD) in HKe; [|lra]. exfalso. destruct HD as [-> |[-> |[-> |[-> | ->]]]]; destruct HS; discriminate. }
      split; apply Forall_forall; intros t Ht; [destruct (sublist_in _ _ _ _ Hf Ht)|destruct (sublist_in _ _ _ _ Hrc Ht)]; apply G; auto; apply HR, in_or_app; auto.
  Qed.
  Lemma data_positive d a r zeros shown F C : combined d -> data_of d a zeros shown F C -> fit_special d a = Ok r -> Forall (Rlt 0) F /\ Forall (Rlt 0) C.
  Proof.
    intros HD H HF. destruct (special_data d a r HD HF) as (z' & s' & F' & C' & H' & P1 & P2).
    destruct H as (raw & rc & E1 & E2 & HF1 & HC1 & _). destruct H' as (raw' & rc' & E1' & E2' & HF1' & HC1' & _).
    assert (raw' = raw) as -> by congruence. assert (rc' = rc) as -> by (destruct E2 as [E|[E ->]]; destruct E2' as [E'|[E' ->]]; congruence).
    rewrite (sublist_unique _ _ _ _ _ neqb_iff HF1 HF1'), (sublist_unique _ _ _ _ _ neqb_iff HC1 HC1'). auto.
  Qed.
  Lemma shown_length d a zeros shown F C : data_of d a zeros shown F C -> length shown = (length zeros + length F)%nat.
  Proof.
    intros (raw & rc & _ & _ & HF & _ & HZ & HN). destruct (takes_zeros d) eqn:ET.
    - destruct (HZ (proj1 (takes_zeros_iff d) ET)) as [-> Hz]. exact (zeros_length _ _ _ Hz HF).
    - destruct HN as [-> ->]; [rewrite <- takes_zeros_iff; congruence|]. reflexivity.
  Qed.
  Lemma guess_length d o CI shown zeros F C g : combined d -> special_guess ls minimize inv sort gj kde d o CI shown zeros F C = Ok g -> length g = n_special d.
  Proof.
    intros HD H. destruct HD as [-> |[-> |[-> |[-> | ->]]]]; cbn [special_guess] in H; cbv zeta in H;
      repeat (apply bind_ok in H; destruct H as (? & _ & H)); apply Ok_inj in H; subst g; reflexivity.
  Qed.
  Lemma maximise_length b f o g x n : keeps_length minimize -> maximise minimize b f o g = Ok (x, n) -> length x = length g.
  Proof. intros HL H. refine (maximise_inv minimize b f o g x n (fun l => length l = length g) _ H eq_refl). intros m l E. now rewrite HL. Qed.
  Lemma special_length d a r : combined d -> keeps_length minimize -> fit_special d a = Ok r -> length (s_params r) = n_special d.
  Proof.
    intros HD HL H. destruct (special_data d a r HD H) as (z & s & F & C & HA & _). destruct (special_is d a r z s F C HD HA H) as (raw & k & g & _ & _ & _ & _ & _ & _ & HG & HM & _).
    rewrite (maximise_length _ _ _ _ _ _ HL HM). eapply guess_length; eassumption.
  Qed.
End Oracles.

Lemma list5 (l : list R) : length l = 5%nat -> exists a b c d e, l = [a; b; c; d; e].
Proof. destruct l as [|a [|b [|c [|d [|e [|? ?]]]]]]; try discriminate. intros _. repeat eexists. Qed.
Lemma list4 (l : list R) : length l = 4%nat -> exists a b c d, l = [a; b; c; d].
Proof. destruct l as [|a [|b [|c [|d [|? ?]]]]]; try discriminate. intros _. repeat eexists. Qed.
(** The lists of parameters, named. *)
Ltac name_params HL := cbn [n_special] in HL;
  first [apply list5 in HL; destruct HL as (?a1 & ?b1 & ?a2 & ?b2 & ?q & HL) | apply list4 in HL; destruct HL as (?a1 & ?b1 & ?a2 & ?b2 & HL) | apply list3 in HL; destruct HL as (?a1 & ?b1 & ?a2 & HL)].
Lemma combination_is d p : combined d -> length p = n_special d -> combination d p = Some (distribution (special_model d p)).
Proof. intros [-> |[-> |[-> |[-> | ->]]]] HL; name_params HL; rewrite HL; reflexivity. Qed.
Lemma sensible_ok d p : combined d -> sensible d p -> length p = n_special d /\ params_ok (special_model d p) /\ zero_mass (special_model d p) = mass_at_zero d p /\
  free_parameters (special_model d p) false = n_special d /\ (forall t, support (special_model d p) t = (0 < t)) /\ Forall2 CISpec.in_range (parameter_ranges d) p /\ (takes_zeros d = true -> ZI_of d p = mass_at_zero d p).
Proof.
  intros [-> |[-> |[-> |[-> | ->]]]] HS; repeat (destruct p as [|? p]; try (exfalso; exact HS)); cbn [sensible] in HS;
    (split; [reflexivity|]); (split; [cbn [special_model nth params_ok]; exact HS|]); (split; [reflexivity|]); (split; [reflexivity|]); (split; [reflexivity|]);
    (split; [cbn [parameter_ranges]; repeat (apply Forall2_cons; [cbn [CISpec.in_range]; lra|]); apply Forall2_nil|]); intros E; try discriminate E; reflexivity.
Qed.
