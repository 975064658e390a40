(** Property C144, continued: rows, standard errors, support, the fallback of the three-parameter fitters. *)
From Coquelicot Require Import Coquelicot.
From Coq Require Import String.
From Coq Require Import List Arith ZArith Reals Lra Lia Bool Permutation FunctionalExtensionality.
From Verif Require Import Base RealFacts Ext Gauss RList ConvertModel DistModel NonparModel NonparProps CIModel CISpec CIProofs SelModel SelSpec SelProofs InputModel CombModel CombSpec FitModel FitSpec FitProofs FitProps RegModel RegProofs FArgModel FArgSpec FArgProps PlotModel GroupModel FullFitModel FullFitSpec FullFitProofs FullFitProps.
Import ListNotations.
Open Scope R_scope.

Lemma Ok_inj {A} (u v : A) : Ok u = Ok v -> u = v.
Proof. congruence. Qed.
(** Lists of a given length. *)
Lemma list1 {A} (p : list A) : length p = 1%nat -> exists x, p = [x].
Proof. destruct p as [|x [|]]; try discriminate. eauto. Qed.
Lemma list2 {A} (p : list A) : length p = 2%nat -> exists x y, p = [x; y].
Proof. destruct p as [|x [|y [|]]]; try discriminate. eauto. Qed.
Lemma list3 {A} (p : list A) : length p = 3%nat -> exists x y z, p = [x; y; z].
Proof. destruct p as [|x [|y [|z [|]]]]; try discriminate. eauto. Qed.

Lemma classic_signed d : signed d \/ ~ signed d.
Proof. unfold signed. destruct d; try (right; intros [H|H]; discriminate H); left; auto. Qed.

Section Oracles.
  Context (ls : dname -> option rr -> option R -> list R -> list R -> result (list R))
          (minimize : list (option R * option R) -> opt -> (list R -> R) -> list R -> bool * list R)
          (inv : (list R -> R) -> list R -> option (nat -> nat -> R))
          (sort : list (nat * NonparModel.row) -> list (nat * NonparModel.row))
          (gj : gamma_jac).
  Notation fit := (fit ls minimize inv sort gj).
  Notation fit_plain := (fit_plain ls minimize inv sort gj).

  (** The guess comes from the least squares routine. *)
  Lemma guess_from d m force F C name g : LS_optimization ls d m force F C = Ok (name, g) ->
    exists r f, ls d r f F C = Ok g /\ ((nonlinear d = true /\ r = None /\ name = "NLLS"%string) \/
      (nonlinear d = false /\ f = force /\ ((r = Some RRX /\ name = "RRX"%string) \/ (r = Some RRY /\ name = "RRY"%string)))).
  Proof.
    intros H. unfold LS_optimization in H. destruct m as [m'|]; [|discriminate H]. destruct (negb _); [discriminate H|].
    destruct (nonlinear d) eqn:EN; [apply bind_ok in H; destruct H as (g' & H & E); assert (g' = g /\ name = "NLLS"%string) as [-> ->] by (split; congruence); exists None, None; auto|].
    destruct (String.eqb m' "RRX") eqn:E1; [apply bind_ok in H; destruct H as (g' & H & E); apply String.eqb_eq in E1; assert (g' = g /\ name = m') as [-> ->] by (split; congruence); subst m'; exists (Some RRX), force; auto 8|].
    destruct (String.eqb m' "RRY") eqn:E2; [apply bind_ok in H; destruct H as (g' & H & E); apply String.eqb_eq in E2; assert (g' = g /\ name = m') as [-> ->] by (split; congruence); subst m'; exists (Some RRY), force; auto 8|].
    apply bind_ok in H. destruct H as (gx & HX & H). apply bind_ok in H. destruct H as (gy & HY & H). apply Ok_inj in H. unfold LS_choice in H.
    destruct (Rlt_dec _ _); cbn [fst snd] in H; injection H as <- <-; [exists (Some RRX), force|exists (Some RRY), force]; auto 8.
  Qed.
  Lemma estimate_length d k p name o : single d -> complete_guess ls -> keeps_length minimize ->
    estimate ls minimize d (i_method k) (own_force d k) (i_optimizer k) (i_failures k) (i_right_censored k) = Ok (p, name, o) -> length p = n_params d.
  Proof.
    intros S (HG & _) HM HE. unfold estimate in HE. apply bind_ok in HE. destruct HE as ((m, g) & HL & HE). destruct (guess_from _ _ _ _ _ _ _ HL) as (r & f & Hg & _). apply HG in Hg.
    destruct (i_method k) as [me|]; [|discriminate HE]. cbn [fst snd] in HE. destruct (String.eqb me "MLE"); [|assert (g = p) as <- by congruence; exact Hg].
    apply bind_ok in HE. destruct HE as ((x, o') & HQ & HE). cbn [fst snd] in HE. assert (x = p) as -> by congruence. clear HE. unfold MLE_estimate in HQ.
    destruct (own_force d k) as [s|] eqn:EF.
    - apply bind_ok in HQ. destruct HQ as (q' & _ & HQ). assert (p = [nth 0 (fst q') 0; s]) as -> by (apply Ok_inj in HQ; congruence).
      destruct (own_force_plain d k ltac:(congruence)) as [-> |[-> | ->]]; reflexivity.
    - destruct (dname_eqb d D_Exponential_2P && Rltb' (nth 0 g 0) 1) eqn:EE.
      + apply bind_ok in HQ. destruct HQ as (q' & _ & HQ). assert (p = [1 / nth 0 (fst q') 0; nth 1 (fst q') 0]) as -> by (apply Ok_inj in HQ; congruence).
        destruct d; try discriminate EE; reflexivity.
      + refine (maximise_inv minimize _ _ _ _ _ _ (fun l => length l = n_params d) _ HQ Hg). intros m0 g0 H0. rewrite HM. exact H0.
  Qed.

  (** The rows of the table name the estimates, whatever comes of the covariances. *)
  Lemma limits_est_of d forced CI p (c : option (list R * R)) o rows : single d -> length p = n_params d -> (forced = true -> d = D_Weibull_2P \/ d = D_Normal_2P \/ d = D_Lognormal_2P) ->
    (forall v w, c = Some (v, w) -> length v = length (with_mu d p)) ->
    fit_limits d forced CI (with_mu d p) (option_map fst c) o = Ok rows -> map p_est rows = with_mu d p /\ length rows = length (with_mu d p).
  Proof.
    intros S HL HF HC H. unfold fit_limits in H. destruct c as [(v, w)|]; cbn [option_map fst] in H.
    - apply Ok_inj in H. subst rows. specialize (HC v w eq_refl).
      assert (forall ks es ss Z, length ks = length es -> length ss = length es -> map p_est (limits_of ks Z es ss) = es /\ length (limits_of ks Z es ss) = length es) as G.
      { clear. induction ks as [|k ks IH]; intros [|e es] [|s ss] Z H1 H2; try discriminate; [split; reflexivity|]. cbn [limits_of map length]. rewrite limits_est.
        destruct (IH es ss Z ltac:(cbn in H1; lia) ltac:(cbn in H2; lia)) as [-> ->]. split; reflexivity. }
      apply G; [|rewrite map_length; exact HC]. destruct forced.
      + destruct (HF eq_refl) as [-> |[-> | ->]]; cbn [param_kinds with_mu]; rewrite HL; reflexivity.
      + destruct d; destruct S; cbn [param_kinds with_mu n_params] in *; rewrite ?app_length, HL; reflexivity.
    - destruct o; [|discriminate H]. apply Ok_inj in H. subst rows. rewrite map_map, map_length. cbn [p_est]. split; [apply map_id|reflexivity].
  Qed.
  Lemma covariance_length d force F C p v w : single d -> length p = n_params d -> covariance inv d force F C p = Some (v, w) -> length v = length (with_mu d p).
  Proof.
    intros S HL H. assert (forall A (x y : A), Some x = Some y -> x = y) as I by congruence.
    destruct d; destruct S; cbn [covariance smaller with_mu n_params] in *; rewrite ?app_length, HL;
      repeat match type of H with
             | match inv ?f ?q with _ => _ end = _ => destruct (inv f q); [|discriminate H]
             | match ?o with Some _ => _ | None => _ end = _ => destruct o
             end; try discriminate H; apply I in H; injection H as <- <-; reflexivity.
  Qed.
  Lemma plain_rows d a r : single d -> smaller d = None -> complete_guess ls -> keeps_length minimize -> fit_plain d a = Ok r ->
    length (f_params r) = n_params d /\ map p_est (f_limits r) = with_mu d (f_params r) /\ length (f_limits r) = length (with_mu d (f_params r)).
  Proof.
    intros S ES HG HM H. apply plain_is in H. destruct H as (k & p & name & o & rows & HK & HE & HR & H). apply assemble_is in H. cbv zeta in H. destruct H as (-> & -> & _).
    assert (length p = n_params d) as HL by (eapply estimate_length; eassumption). split; [exact HL|].
    eapply limits_est_of; [exact S|exact HL| | |exact HR].
    - intros HF. apply (own_force_plain d k). destruct (own_force d k); [discriminate|discriminate HF].
    - intros v w Hv. eapply covariance_length; eassumption.
  Qed.

  (** As many parameters as the model has, in the order of the rows of the table, each with its row. *)
  Theorem C144_rows d a r : single d -> complete_guess ls -> keeps_length minimize -> fit d a = Ok r ->
    length (f_params r) = n_params d /\ map p_est (firstn (n_params d) (f_limits r)) = f_params r.
  Proof.
    intros S HG HM H. unfold FullFitModel.fit in H. destruct (smaller d) as [d2|] eqn:ES.
    - apply three_is in H. destruct H as (k & p & name & o & HK & HE & H).
      assert (own_force d k = None) as EF by (destruct d; try discriminate ES; reflexivity).
      assert (n_params d = 3%nat) as EN by (destruct d; try discriminate ES; reflexivity).
      assert (single d2 /\ smaller d2 = None /\ n_params d2 = 2%nat) as (S2 & ES2 & EN2) by (destruct d; try discriminate ES; injection ES as <-; repeat split).
      destruct H as [(_ & r2 & H2 & H)|(_ & rows & HR & H)]; apply assemble_is in H; cbv zeta in H; destruct H as (-> & -> & _).
      + destruct (plain_rows d2 _ r2 S2 ES2 HG HM H2) as (L2 & E2 & L3). rewrite EN2 in L2. apply list2 in L2. destruct L2 as (x & y & EP). rewrite EP in *. rewrite EN. split; [reflexivity|].
        assert (exists t, with_mu d2 [x; y] = x :: y :: t) as (t & ET) by (destruct d; try discriminate ES; injection ES as <-; eexists; reflexivity). rewrite ET in E2.
        unfold with_zero. destruct (f_limits r2) as [|u [|w l]]; try discriminate E2. injection E2 as E2 E3 _. cbn. rewrite E2, E3. reflexivity.
      + rewrite <- EF in HE. assert (length p = n_params d) as HL by (eapply estimate_length; eassumption). split; [exact HL|].
        assert (map p_est rows = with_mu d p) as E.
        { refine (proj1 (limits_est_of d false _ p (covariance inv d None (i_failures k) (i_right_censored k) p) _ _ S HL _ _ HR)); [discriminate|]. intros v w Hv. eapply covariance_length; eassumption. }
        rewrite <- firstn_map, E. rewrite EN in *. apply list3 in HL. destruct HL as (x & y & z & ->). destruct d; try discriminate ES; reflexivity.
    - destruct (plain_rows d a r S ES HG HM H) as (HL & E & _). split; [exact HL|]. rewrite <- firstn_map, E. rewrite <- HL. destruct d; cbn [with_mu]; try apply firstn_all; rewrite firstn_app, Nat.sub_diag, firstn_all; apply app_nil_r.
  Qed.

  (** There are no further rows, except that Gamma has one more with the logarithm of the scale parameter. *)
  Theorem C144_mu d a r : single d -> complete_guess ls -> keeps_length minimize -> fit d a = Ok r ->
    map p_est (f_limits r) = f_params r ++ match d with D_Gamma_2P | D_Gamma_3P => [ln (nth 0 (f_params r) 0)] | _ => [] end.
  Proof.
    intros S HG HM H. pose proof (C144_rows d a r S HG HM H) as [HN HR]. unfold FullFitModel.fit in H. destruct (smaller d) as [d2|] eqn:ES.
    - apply three_is in H. destruct H as (k & p & name & o & HK & HE & H).
      assert (own_force d k = None) as EF by (destruct d; try discriminate ES; reflexivity).
      assert (single d2 /\ smaller d2 = None /\ n_params d2 = 2%nat) as (S2 & ES2 & EN2) by (destruct d; try discriminate ES; injection ES as <-; repeat split).
      destruct H as [(_ & r2 & H2 & H)|(_ & rows & HQ & H)]; apply assemble_is in H; cbv zeta in H; destruct H as (-> & -> & _).
      + destruct (plain_rows d2 _ r2 S2 ES2 HG HM H2) as (L2 & E2 & L3). rewrite EN2 in L2. apply list2 in L2. destruct L2 as (x & y & EP). rewrite EP in *.
        assert (exists t, with_mu d2 [x; y] = x :: y :: t /\ t = match d with D_Gamma_2P | D_Gamma_3P => [ln x] | _ => [] end) as (t & ET & Et) by (destruct d; try discriminate ES; injection ES as <-; eexists; split; reflexivity).
        rewrite ET in E2. unfold with_zero. destruct (f_limits r2) as [|u [|w l]]; try discriminate E2. injection E2 as E2 E3 E4. cbn. rewrite E2, E3, E4, Et. reflexivity.
      + rewrite <- EF in HE. assert (length p = n_params d) as HL by (eapply estimate_length; eassumption).
        assert (map p_est rows = with_mu d p) as E.
        { refine (proj1 (limits_est_of d false _ p (covariance inv d None (i_failures k) (i_right_censored k) p) _ _ S HL _ _ HQ)); [discriminate|]. intros v w Hv. eapply covariance_length; eassumption. }
        rewrite E. destruct d; cbn [with_mu]; rewrite ?app_nil_r; reflexivity.
    - destruct (plain_rows d a r S ES HG HM H) as (_ & E & _). rewrite E. destruct d; cbn [with_mu]; rewrite ?app_nil_r; reflexivity.
  Qed.

  (** The limits of every parameter enclose its estimate. *)
  Lemma row_brackets d forced CI p (c : option (list R * R)) o rows i row : single d -> length p = n_params d -> 0 < CI < 1 ->
    proper d p -> (n_params d = 3%nat -> 0 < nth 2 p 0) ->
    fit_limits d forced CI (with_mu d p) (option_map fst c) o = Ok rows -> (i < n_params d)%nat -> nth_error rows i = Some row -> brackets row.
  Proof.
    intros S HL HC HP H3 H Hi Hr. unfold fit_limits in H. destruct c as [(v, w)|]; cbn [option_map fst] in H.
    - apply Ok_inj in H. subst rows. apply limits_of_nth in Hr. destruct Hr as (kd & e & s & Hk & He & Hs & ->).
      rewrite nth_error_map in Hs. destruct (nth_error v i) as [x|]; [|discriminate Hs]. cbn in Hs. injection Hs as <-.
      apply limits_bracket; [|apply sqrt_pos|left; now apply Z_nonneg].
      unfold proper in HP.
      destruct d; destruct S; cbn [n_params location] in *;
        first [apply list3 in HL; destruct HL as (x1 & x2 & x3 & ->); specialize (H3 eq_refl) | apply list2 in HL; destruct HL as (x1 & x2 & ->) | apply list1 in HL; destruct HL as (x1 & ->)];
        cbn [nth with_mu app] in *; destruct forced; do 3 (destruct i as [|i]; [first [exfalso; lia | cbn in Hk, He; injection Hk as <-; injection He as <-; cbn [estimate_ok]; first [exact I | tauto | lra]]|]); exfalso; lia.
    - destruct o; [|discriminate H]. apply Ok_inj in H. subst rows. rewrite nth_error_map in Hr. destruct (nth_error (with_mu d p) i); [|discriminate Hr]. cbn in Hr. injection Hr as <-. exists r, r. cbn. repeat split; lra.
  Qed.
  Lemma checked_CI d a k : fitters_input_checking d a = Ok k -> 0 < i_CI k < 1.
  Proof. intros H. apply C129_accepts in H. destruct H as (f & rc & n & _ & _ & _ & _ & _ & _ & _ & _ & H & -> & _). exact H. Qed.
  Theorem C144_bracket d a r i row : single d -> complete_guess ls -> keeps_length minimize -> fit d a = Ok r -> proper d (f_params r) ->
    (i < n_params d)%nat -> nth_error (f_limits r) i = Some row -> brackets row.
  Proof.
    intros S HG HM H HP Hi Hr. unfold FullFitModel.fit in H. destruct (smaller d) as [d2|] eqn:ES.
    - apply three_is in H. destruct H as (k & p & name & o & HK & HE & H).
      assert (own_force d k = None) as EF by (destruct d; try discriminate ES; reflexivity).
      assert (n_params d = 3%nat) as EN by (destruct d; try discriminate ES; reflexivity).
      assert (single d2 /\ smaller d2 = None /\ n_params d2 = 2%nat) as (S2 & ES2 & EN2) by (destruct d; try discriminate ES; injection ES as <-; repeat split).
      destruct H as [(_ & r2 & H2 & H)|(HL2 & rows & HR & H)]; apply assemble_is in H; cbv zeta in H; destruct H as (EP & ER & _); rewrite EP in HP; rewrite ER in Hr.
      + destruct (plain_rows d2 _ r2 S2 ES2 HG HM H2) as (L2 & _). apply plain_is in H2. destruct H2 as (k2 & p2 & name2 & o2 & rows2 & HK2 & HE2 & HR2 & H2).
        apply assemble_is in H2. cbv zeta in H2. destruct H2 as (EP2 & ER2 & _). rewrite EP2 in HP, L2. rewrite ER2 in Hr.
        assert (proper d2 p2) as HP2.
        { rewrite EN2 in L2. apply list2 in L2. destruct L2 as (x & y & ->). cbn [firstn app] in HP. unfold proper in *. destruct d; try discriminate ES; injection ES as <-; cbn [location nth] in *; intuition lra. }
        rewrite EN in Hi. unfold with_zero in Hr.
        assert (forall l : list limits, (2 <= length l)%nat -> nth_error (firstn 2 l ++ zero_row :: skipn 2 l) i = if (i <? 2)%nat then nth_error l i else Some zero_row) as G.
        { intros [|u [|w l]] Hl; cbn in Hl; try lia. destruct i as [|[|[|i]]]; try reflexivity. lia. }
        destruct (le_lt_dec 2 (length rows2)) as [Hl|Hl].
        * rewrite (G _ Hl) in Hr. destruct (i <? 2)%nat eqn:E2.
          -- apply Nat.ltb_lt in E2. refine (row_brackets d2 _ _ p2 _ _ rows2 i row S2 L2 (checked_CI _ _ _ HK2) HP2 _ HR2 _ Hr); rewrite EN2; [discriminate|exact E2].
          -- injection Hr as <-. exists 0, 0. cbn. repeat split; lra.
        * exfalso. assert (length rows2 = length (with_mu d2 p2)) as E.
          { refine (proj2 (limits_est_of d2 _ _ p2 (covariance inv d2 (own_force d2 k2) (i_failures k2) (i_right_censored k2) p2) _ rows2 S2 L2 _ _ HR2)).
            - intros HF. apply (own_force_plain d2 k2). destruct (own_force d2 k2); [discriminate|discriminate HF].
            - intros v w Hv. eapply covariance_length; eassumption. }
          rewrite E in Hl. destruct d2; cbn [with_mu] in Hl; rewrite ?app_length, L2, EN2 in Hl; cbn in Hl; lia.
      + rewrite <- EF in HE. assert (length p = n_params d) as HL by (eapply estimate_length; eassumption).
        refine (row_brackets d _ _ p _ _ rows i row S HL (checked_CI _ _ _ HK) HP _ HR Hi Hr). intros _. lra.
    - apply plain_is in H. destruct H as (k & p & name & o & rows & HK & HE & HR & H). apply assemble_is in H. cbv zeta in H. destruct H as (EP & ER & _). rewrite EP in HP. rewrite ER in Hr.
      assert (length p = n_params d) as HL by (eapply estimate_length; eassumption).
      refine (row_brackets d _ _ p _ _ rows i row S HL (checked_CI _ _ _ HK) HP _ HR Hi Hr). intros E. destruct d; try discriminate ES; discriminate E.
  Qed.

  (** The location is 0 or at least 1/100. When it is 0 the scale and shape, their rows and the
      log-likelihood are those of the two-parameter fitter with the default method on the same data. *)
  Lemma sublist_all (P : R -> Prop) l m : Forall P l -> sublist_of P l m -> m = l.
  Proof. intros HF H. induction H as [|x l m Hx H IH|x l m Hx H IH]; [reflexivity| |]; inversion HF as [|? ? H1 H2]; subst; [f_equal; now apply IH|contradiction]. Qed.
  Lemma sublist_kept (P : R -> Prop) l m : sublist_of P l m -> Forall P m.
  Proof. intros H. induction H; [constructor|constructor; assumption|assumption]. Qed.
  Lemma checked_kept d a k : fitters_input_checking d a = Ok k -> Forall (keep d) (i_failures k) /\ Forall (keep d) (i_right_censored k).
  Proof. intros H. apply C129_accepts in H. destruct H as (f & rc & n & _ & _ & _ & H1 & H2 & _). split; eapply sublist_kept; eassumption. Qed.
  Lemma same_keep d d2 t : smaller d = Some d2 -> keep d t -> keep d2 t.
  Proof. intros ES. unfold keep, signed. destruct d; try discriminate ES; injection ES as <-; intros [[H|H]|[H _]]; try discriminate H; right; (split; [exact H|discriminate]). Qed.
  Theorem C144_fallback d d2 a r : single d -> smaller d = Some d2 -> complete_guess ls -> keeps_length minimize -> fit d a = Ok r ->
    1 / 100 <= location d (f_params r) \/
    (location d (f_params r) = 0 /\ exists r2,
       fit d2 (mkFit (D_seq (f_failures r)) (D_seq (f_right_censored r)) (Text "MLE") No_text (T_float, snd (a_CI a)) Q_None None None (Text "time")) = Ok r2 /\
       f_params r = f_params r2 ++ [0] /\ firstn 2 (f_limits r) = firstn 2 (f_limits r2) /\ f_cov r = f_cov r2 /\ loglik (f_gof r) = loglik (f_gof r2)).
  Proof.
    intros S ES HG HM H. pose proof (C144_rows d a r S HG HM H) as [HLr _]. pose proof (gof_is ls minimize inv sort gj d a r HG S H) as EG. unfold FullFitModel.fit in H. rewrite ES in H. apply three_is in H. destruct H as (k & p & name & o & HK & HE & H).
    assert (forall q, location d q = nth 2 q 0) as ELoc by (destruct d; try discriminate ES; reflexivity). rewrite ELoc.
    assert (single d2 /\ smaller d2 = None /\ n_params d2 = 2%nat) as (S2 & ES2 & EN2) by (destruct d; try discriminate ES; injection ES as <-; repeat split).
    assert (i_CI k = snd (a_CI a)) as ECI by (apply C129_accepts in HK; destruct HK as (f & rc & n & _ & _ & _ & _ & _ & _ & _ & _ & _ & E & _); exact E).
    destruct H as [(_ & r2 & H2 & H)|(HL2 & rows & HR & H)]; apply assemble_is in H; cbv zeta in H; destruct H as (EP & ER & EC & _ & _ & _ & EF & ECe & _); [right|left; rewrite EP; exact HL2].
    pose proof H2 as H2'. assert (FullFitModel.fit ls minimize inv sort gj d2 (default_args k) = Ok r2) as HF2 by (unfold FullFitModel.fit; rewrite ES2; exact H2).
    destruct (plain_rows d2 _ r2 S2 ES2 HG HM H2) as (L2 & E2 & _). rewrite EN2 in L2. apply list2 in L2. destruct L2 as (x & y & EP2). rewrite EP2 in *. cbn [firstn app] in EP. rewrite EP. split; [reflexivity|].
    exists r2. unfold default_args in HF2. rewrite <- EF, <- ECe, ECI in HF2. split; [exact HF2|]. rewrite EP2. split; [reflexivity|]. rewrite ER, EC. split; [|split; [reflexivity|]].
    - unfold with_zero. assert (2 <= length (f_limits r2))%nat as Hl by (rewrite <- (map_length p_est), E2; destruct d2; cbn; lia).
      destruct (f_limits r2) as [|u [|w l]]; cbn in Hl; try lia. reflexivity.
    - rewrite EG. rewrite (gof_is ls minimize inv sort gj d2 _ r2 HG S2 HF2). unfold goodness. cbn [loglik]. rewrite EP, EP2.
      assert (f_failures r2 = f_failures r /\ f_right_censored r2 = f_right_censored r) as (-> & ->).
      { destruct (C144_data ls minimize inv sort gj d2 _ r2 HF2) as (f & rc & D1 & D2 & D3 & D4). cbn [a_failures a_right_censored] in D1, D2. injection D1 as <-. destruct D2 as [D2|[D2 _]]; [injection D2 as <-|discriminate D2].
        destruct (checked_kept _ _ _ HK) as [K1 K2]. rewrite EF, ECe in *. split; [apply (sublist_all (keep d2) _ _ (Forall_impl _ (fun t => same_keep d d2 t ES) K1) D3)|apply (sublist_all (keep d2) _ _ (Forall_impl _ (fun t => same_keep d d2 t ES) K2) D4)]. }
      f_equal. f_equal. change [x; y; 0] with [nth 0 [x; y] 0; nth 1 [x; y] 0; 0]. rewrite <- (shift_LL d d2 [x; y] 0 _ _ ES).
      assert (forall l, shifted 0 l = l) as E0 by (intros l; unfold shifted; rewrite <- (map_id l) at 2; apply map_ext; intros t; ring). rewrite !E0. reflexivity.
  Qed.

  (** The distribution reported can have produced the data: if the optimizers and the least squares routine
      stay within the bounds, every time lies inside its support. *)
  Lemma gamma0_below F C t : In t (F ++ C) -> 0 < t -> gamma0 F C < t.
  Proof.
    intros Hi Ht. unfold gamma0. apply Rmax_lub_lt; [exact Ht|]. assert (rmin (F ++ C) <= t) as H; [|lra]. revert Hi. generalize (F ++ C). clear. intros l.
    destruct l as [|x l]; [intros []|]. unfold rmin. intros Hi. assert (forall l x, fold_right Rmin x l <= x /\ forall y, In y l -> fold_right Rmin x l <= y) as G.
    { clear. induction l as [|z l IH]; intros x; cbn [fold_right]; [split; [lra|intros y []]|]. destruct (IH x) as [H1 H2]. split; [eapply Rle_trans; [apply Rmin_r|exact H1]|].
      intros y [-> | Hy]; [apply Rmin_l|eapply Rle_trans; [apply Rmin_r|now apply H2]]. }
    destruct (G l x) as [H1 H2]. destruct Hi as [-> | Hi]; auto.
  Qed.
  Lemma kept_positive d a k t : fitters_input_checking d a = Ok k -> ~ signed d -> In t (i_failures k ++ i_right_censored k) -> 0 < t /\ (d = D_Beta_2P -> t < 1).
  Proof.
    intros H NS Hi. apply C129_accepts in H. destruct H as (f & rc & n & _ & _ & HR & H1 & H2 & _).
    assert (forall l m, Forall (FArgSpec.in_range d) l -> sublist_of (keep d) l m -> In t m -> 0 < t /\ (d = D_Beta_2P -> t < 1)) as G.
    { clear - NS. intros l m HF H. induction H as [|x l m Hx H IH|x l m Hx H IH]; inversion HF as [|? ? H1 H2]; subst; [intros []| |auto].
      intros [-> | Hi]; [|auto]. destruct H1 as [H1|[H1 H3]]; [contradiction|]. destruct Hx as [Hx|[Hx Hx1]]; [contradiction|]. split; [lra|]. intros E. specialize (H3 E). specialize (Hx1 E). lra. }
    apply Forall_app in HR. destruct HR as [HR1 HR2]. apply in_app_or in Hi. destruct Hi; eauto.
  Qed.
  Definition keeps_guess_bounds : Prop := forall d m force F C g, ls d m force F C = Ok g -> Forall2 within (bounds d F C) g.
  Lemma location_bounds d F C p : single d -> Forall2 within (bounds d F C) p -> 0 <= location d p <= gamma0 F C.
  Proof.
    assert (0 <= 0 <= gamma0 F C) as H0 by (unfold gamma0; pose proof (Rmax_l 0 (rmin (F ++ C) - 1 / 10000)); lra).
    intros S H. destruct d; destruct S; cbn [bounds location] in *; try exact H0; repeat match goal with H : Forall2 _ (_ :: _) _ |- _ => inversion H; clear H; subst end; cbn [nth] in *;
      match goal with H : within (Some 0, Some (gamma0 F C)) _ |- _ => exact H end.
  Qed.
  Lemma estimate_location d k p name o : single d -> keeps_guess_bounds -> keeps_bounds minimize ->
    estimate ls minimize d (i_method k) (own_force d k) (i_optimizer k) (i_failures k) (i_right_censored k) = Ok (p, name, o) ->
    0 <= location d p <= gamma0 (i_failures k) (i_right_censored k).
  Proof.
    set (F := i_failures k). set (C := i_right_censored k). intros S HG HM HE. unfold estimate in HE. apply bind_ok in HE. destruct HE as ((m, g) & HL & HE). destruct (guess_from _ _ _ _ _ _ _ HL) as (r & f & Hg & _). apply HG in Hg.
    destruct (i_method k) as [me|]; [|discriminate HE]. cbn [fst snd] in HE. destruct (String.eqb me "MLE"); [|assert (g = p) as <- by congruence; now apply location_bounds].
    apply bind_ok in HE. destruct HE as ((x, o') & HQ & HE). cbn [fst snd] in HE. assert (x = p) as -> by congruence. clear HE. unfold MLE_estimate in HQ.
    destruct (own_force d k) as [s|] eqn:EF.
    - assert (location d p = 0) as -> by (destruct (own_force_plain d k ltac:(congruence)) as [-> |[-> | ->]]; reflexivity). unfold gamma0. pose proof (Rmax_l 0 (rmin (F ++ C) - 1 / 10000)). lra.
    - destruct (dname_eqb d D_Exponential_2P && Rltb' (nth 0 g 0) 1) eqn:EE.
      + assert (d = D_Exponential_2P) as -> by (destruct d; try discriminate EE; reflexivity). apply bind_ok in HQ. destruct HQ as ((x, o1) & HX & HQ). cbn [fst snd] in HQ.
        assert (p = [1 / nth 0 x 0; nth 1 x 0]) as -> by (apply Ok_inj in HQ; congruence). cbn [location nth].
        assert (Forall2 within (bounds D_Exponential_2P F C) x) as HB.
        { refine (maximise_inv minimize _ _ _ _ _ _ (fun l => Forall2 within (bounds D_Exponential_2P F C) l) _ HX _); [intros m0 g0 H0; now apply HM|].
          cbn [bounds] in *. inversion Hg as [|? u ? l Hu Hl E1 E2]; subst. inversion Hl as [|? u2 ? l2 Hu2 Hl2 E1 E2]; subst. inversion Hl2; subst. cbn [nth] in *.
          constructor; [|constructor; [exact Hu2|constructor]]. unfold within in *. cbn [fst snd] in *. split; [|exact I]. destruct Hu as [Hu _].
          destruct (Req_dec u 0) as [-> | Hn]; [unfold Rdiv; rewrite Rinv_0; lra|]. apply Rlt_le. apply Rdiv_lt_0_compat; lra. }
        apply (location_bounds D_Exponential_2P F C x I HB).
      + assert (Forall2 within (bounds d F C) p) as HB; [|now apply location_bounds].
        refine (maximise_inv minimize _ _ _ _ _ _ (fun l => Forall2 within (bounds d F C) l) _ HQ Hg). intros m0 g0 H0. now apply HM.
  Qed.
  Theorem C144_support d a r : single d -> keeps_guess_bounds -> keeps_bounds minimize -> fit d a = Ok r ->
    0 <= location d (f_params r) /\ Forall (inside d (f_params r)) (f_failures r ++ f_right_censored r).
  Proof.
    intros S HG HM H. assert (exists k, fitters_input_checking d (own_args d a) = Ok k /\ f_failures r = i_failures k /\ f_right_censored r = i_right_censored k /\
      0 <= location d (f_params r) <= gamma0 (i_failures k) (i_right_censored k)) as (k & HK & -> & -> & HB).
    { unfold FullFitModel.fit in H. destruct (smaller d) as [d2|] eqn:ES.
      - apply three_is in H. destruct H as (k & p & name & o & HK & HE & H). exists k. split; [exact HK|].
        assert (own_force d k = None) as EF by (destruct d; try discriminate ES; reflexivity). rewrite <- EF in HE. pose proof (estimate_location d k p name o S HG HM HE) as HB.
        destruct H as [(_ & r2 & H2 & H)|(HL2 & rows & HR & H)]; apply assemble_is in H; cbv zeta in H; destruct H as (-> & _ & _ & _ & _ & _ & -> & -> & _); (split; [reflexivity|split; [reflexivity|]]); [|exact HB].
        assert (length (f_params r2) = 0 \/ length (f_params r2) = 1 \/ 2 <= length (f_params r2))%nat as HL by lia.
        assert (forall q, location d q = nth 2 q 0) as -> by (destruct d; try discriminate ES; reflexivity).
        assert (nth 2 (firstn 2 (f_params r2) ++ [0]) 0 = 0) as -> by (destruct (f_params r2) as [|u [|w [|z l]]]; reflexivity).
        unfold gamma0. pose proof (Rmax_l 0 (rmin (i_failures k ++ i_right_censored k) - 1 / 10000)). lra.
      - apply plain_is in H. destruct H as (k & p & name & o & rows & HK & HE & _ & H). exists k. split; [exact HK|]. apply assemble_is in H. cbv zeta in H. destruct H as (-> & _ & _ & _ & _ & _ & -> & -> & _).
        split; [reflexivity|split; [reflexivity|]]. now apply (estimate_location d k p name o). }
    split; [exact (proj1 HB)|]. apply Forall_forall. intros t Ht. destruct (classic_signed d) as [HS|HS].
    - destruct HS as [-> | ->]; exact I.
    - destruct (kept_positive d _ k t HK HS Ht) as [Hp Hb]. pose proof (gamma0_below _ _ t Ht Hp). destruct d; destruct S; cbn [inside] in *; try exact I; try lra. split; [exact Hp|exact (Hb eq_refl)].
  Qed.
End Oracles.
Print Assumptions C144_rows.
Print Assumptions C144_mu.
Print Assumptions C144_bracket.
Print Assumptions C144_fallback.
Print Assumptions C144_support.
