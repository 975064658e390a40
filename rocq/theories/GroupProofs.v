(** Proofs about grouped data. *)
From Coquelicot Require Import Coquelicot.
From Coq Require Import String.
From Coq Require Import List Arith ZArith Reals Lra Lia Bool FunctionalExtensionality.
From Verif Require Import Base RealFacts Ext RList ConvertModel DistModel RegModel RegProofs SelModel SelSpec SelProofs FitModel FitProofs FitProps FArgModel InputModel GroupModel GroupSpec.
Import ListNotations.
Open Scope R_scope.

Lemma frame_ok columns rows : documented columns rows -> frame_rows (Frame columns rows) = Ok (map to_row rows).
Proof.
  intros (HC & HR). unfold frame_rows.
  assert (forall c, In c columns -> str_in c columns = true) as HI.
  { intros c Hc. unfold str_in. apply existsb_exists. exists c. split; [exact Hc|apply String.eqb_refl]. }
  rewrite (HI "category"%string) by (apply HC; auto). rewrite (HI "time"%string) by (apply HC; auto). rewrite (HI "quantity"%string) by (apply HC; auto).
  replace (forallb _ columns) with true; [|symmetry; apply forallb_forall; intros c Hc; apply HC in Hc; destruct Hc as [->|[->| ->]]; reflexivity].
  replace (forallb _ rows) with true; [reflexivity|]. symmetry. apply forallb_forall. intros ((c, t), q) Hr. destruct (HR _ _ _ Hr) as [[-> | ->] _]; reflexivity.
Qed.
Lemma filter_repeat {A} (p : A -> bool) x n : filter p (repeat x n) = if p x then repeat x n else [].
Proof. induction n as [|n IH]; cbn [repeat filter]; [destruct (p x); reflexivity|]. rewrite IH. destruct (p x); reflexivity. Qed.
Lemma nonzero_pos t : 0 <= t -> Rneqb t 0 = Rltb' 0 t.
Proof. intros H. unfold Rneqb, Rltb'. destruct (Req_EM_T t 0), (Rlt_dec 0 t); try reflexivity; lra. Qed.
Lemma failures_items rows : (forall c t q, In (c, t, q) rows -> (c = "F" \/ c = "C")%string /\ 0 <= t) -> df_failures (map to_row rows) = nonzero (items "F" rows).
Proof.
  unfold df_failures, expand, F_rows, kept_rows, nonzero. induction rows as [|((c, t), q) r IH]; intros H; [reflexivity|].
  assert (forall c t q, In (c, t, q) r -> (c = "F" \/ c = "C")%string /\ 0 <= t) as H' by (intros; eapply H; right; eassumption). specialize (IH H'). clear H'.
  destruct (H c t q (or_introl eq_refl)) as (Hc & Ht). cbn [map filter items]. change (row_time (to_row (c, t, q))) with t.
  assert (filter (fun t0 => Rneqb t0 0) (if String.eqb c "F" then repeat t q ++ items "F" r else items "F" r)
    = (if String.eqb c "F" then if Rltb' 0 t then repeat t q else [] else []) ++ filter (fun t0 => Rneqb t0 0) (items "F" r)) as ->.
  { destruct (String.eqb c "F"); [|reflexivity]. rewrite filter_app, filter_repeat, nonzero_pos by exact Ht. reflexivity. }
  rewrite <- IH. clear IH. destruct (Rltb' 0 t); [|destruct (String.eqb c "F"); reflexivity].
  cbn [filter]. destruct Hc as [-> | ->]; reflexivity.
Qed.
Lemma censored_items rows : (forall c t q, In (c, t, q) rows -> (c = "F" \/ c = "C")%string /\ 0 <= t) -> df_censored (map to_row rows) = nonzero (items "C" rows).
Proof.
  unfold df_censored, expand, C_rows, kept_rows, nonzero. induction rows as [|((c, t), q) r IH]; intros H; [reflexivity|].
  assert (forall c t q, In (c, t, q) r -> (c = "F" \/ c = "C")%string /\ 0 <= t) as H' by (intros; eapply H; right; eassumption). specialize (IH H'). clear H'.
  destruct (H c t q (or_introl eq_refl)) as (Hc & Ht). cbn [map filter items]. change (row_time (to_row (c, t, q))) with t.
  assert (filter (fun t0 => Rneqb t0 0) (if String.eqb c "C" then repeat t q ++ items "C" r else items "C" r)
    = (if String.eqb c "C" then if Rltb' 0 t then repeat t q else [] else []) ++ filter (fun t0 => Rneqb t0 0) (items "C" r)) as ->.
  { destruct (String.eqb c "C"); [|reflexivity]. rewrite filter_app, filter_repeat, nonzero_pos by exact Ht. reflexivity. }
  rewrite <- IH. clear IH. destruct (Rltb' 0 t); [|destruct (String.eqb c "C"); reflexivity].
  cbn [filter]. destruct Hc as [-> | ->]; reflexivity.
Qed.
Lemma items_nonneg c rows : (forall c t q, In (c, t, q) rows -> (c = "F" \/ c = "C")%string /\ 0 <= t) -> Forall (fun t => 0 <= t) (items c rows).
Proof.
  intros H. induction rows as [|((c', t), q) r IH]; [constructor|]. assert (Forall (fun t => 0 <= t) (items c r)) as IH' by (apply IH; intros; eapply H; right; eassumption).
  cbn [items]. destruct (String.eqb c' c); [|exact IH']. apply Forall_app. split; [|exact IH']. apply Forall_forall. intros x Hx. apply repeat_spec in Hx. subst x. apply (H c' t q). left. reflexivity.
Qed.
Lemma nonzero_twice l : nonzero (nonzero l) = nonzero l.
Proof. unfold nonzero. induction l as [|x l IH]; [reflexivity|]. cbn [filter]. destruct (Rneqb x 0) eqn:E; [cbn [filter]; rewrite E, IH; reflexivity|exact IH]. Qed.
Lemma none_below l : Forall (fun t => 0 <= t) l -> existsb (fun t => Rltb' t 0) l = false.
Proof. intros H. induction H as [|x l Hx Hl IH]; [reflexivity|]. cbn [existsb]. rewrite IH. unfold Rltb'. destruct (Rlt_dec x 0); [lra|reflexivity]. Qed.
Lemma nonzero_nonneg l : Forall (fun t => 0 <= t) l -> Forall (fun t => 0 <= t) (nonzero l).
Proof. intros H. unfold nonzero. apply Forall_forall. intros x Hx. apply filter_In in Hx. rewrite Forall_forall in H. apply H. tauto. Qed.

Lemma check_weibull forced f c : Forall (fun t => 0 <= t) f -> Forall (fun t => 0 <= t) c ->
  check_data D_Weibull_2P forced f c = if (unique_count (nonzero f) <? (if forced then 1 else 2))%nat then Err ValueError else Ok (nonzero f, nonzero c).
Proof.
  intros Hf Hc. unfold check_data. rewrite none_below by (apply Forall_app; auto). cbn [dname_eqb andb min_failures]. fold (nonzero f) (nonzero c).
  destruct (length (f ++ c) =? 0)%nat eqn:E; [|reflexivity]. apply Nat.eqb_eq, length_zero_iff_nil, app_eq_nil in E. destruct E as [-> ->]. destruct forced; reflexivity.
Qed.
Lemma check_nonzero forced f c : Forall (fun t => 0 <= t) f -> Forall (fun t => 0 <= t) c ->
  check_data D_Weibull_2P forced (nonzero f) (nonzero c) = check_data D_Weibull_2P forced f c.
Proof. intros Hf Hc. rewrite !check_weibull by auto using nonzero_nonneg. now rewrite !nonzero_twice. Qed.

(** Both fitters work from the same inputs. *)
Lemma same_inputs columns rows a : documented columns rows ->
  fitters_input_checking D_Weibull_2P (mkFit (D_seq (df_failures (map to_row rows))) (D_seq (df_censored (map to_row rows))) (a_method a) (a_optimizer a) (a_CI a) (a_quantiles a) (a_force_beta a) None (a_CI_type a))
  = fitters_input_checking D_Weibull_2P (ungrouped rows a).
Proof.
  intros (HC & HR). unfold fitters_input_checking, ungrouped. cbn [a_failures a_right_censored a_method a_optimizer a_CI a_quantiles a_force_beta a_force_sigma a_CI_type bind].
  rewrite failures_items, censored_items by exact HR. rewrite check_nonzero by (apply items_nonneg; exact HR). reflexivity.
Qed.
Lemma inputs_are rows a k : (forall c t q, In (c, t, q) rows -> (c = "F" \/ c = "C")%string /\ 0 <= t) ->
  fitters_input_checking D_Weibull_2P (ungrouped rows a) = Ok k ->
  i_failures k = nonzero (items "F" rows) /\ i_right_censored k = nonzero (items "C" rows) /\ resolve_method (a_method a) = Ok (i_method k) /\
  resolve_optimizer (a_optimizer a) = Ok (i_optimizer k) /\ i_force_beta k = a_force_beta a.
Proof.
  intros HR H. unfold fitters_input_checking, ungrouped in H. cbn [a_failures a_right_censored a_method a_optimizer a_CI a_quantiles a_force_beta a_force_sigma a_CI_type bind] in H.
  apply bind_ok in H. destruct H as (dt & HD & H). rewrite check_weibull in HD by (apply items_nonneg; exact HR).
  match type of HD with (if ?b then _ else _) = _ => destruct b end; [discriminate|]. assert (dt = (nonzero (items "F" rows), nonzero (items "C" rows))) as -> by congruence. clear HD.
  match type of H with (if ?b then _ else _) = _ => destruct b end; [discriminate|]. match type of H with (if ?b then _ else _) = _ => destruct b end; [discriminate|].
  apply bind_ok in H. destruct H as (o & HO & H). apply bind_ok in H. destruct H as (m & HM & H). apply bind_ok in H. destruct H as (q & HQ & H).
  apply bind_ok in H. destruct H as (fb & HB & H). apply bind_ok in H. destruct H as (fs & HS & H). apply bind_ok in H. destruct H as (ct & HT & H).
  assert (k = mkInputs (nonzero (items "F" rows)) (nonzero (items "C" rows)) m o (snd (a_CI a)) q fb fs ct) as -> by (cbn [fst snd] in H; congruence).
  cbn [i_failures i_right_censored i_method i_optimizer i_force_beta]. repeat split; auto.
  unfold check_force in HB. destruct (a_force_beta a) as [v|]; [|congruence]. destruct (le v 0); congruence.
Qed.

(** The two log-likelihoods are the same functions. *)
Lemma grouped_nll df : (fun p : R * R => grouped_LL (fst p) (snd p) (map row_time (F_rows df)) (map (fun r => INR (row_qty r)) (F_rows df)) (map row_time (C_rows df)) (map (fun r => INR (row_qty r)) (C_rows df)))
  = nll (df_failures df) (df_censored df).
Proof. apply functional_extensionality. intros p. exact (proj1 (df_LL_expanded (fst p) (snd p) df)). Qed.
Lemma grouped_nll1 df : (fun fb x : R => grouped_LL_fb x fb (map row_time (F_rows df)) (map (fun r => INR (row_qty r)) (F_rows df)) (map row_time (C_rows df)) (map (fun r => INR (row_qty r)) (C_rows df)))
  = nll1 (df_failures df) (df_censored df).
Proof. apply functional_extensionality. intros b. apply functional_extensionality. intros x. exact (proj1 (df_LL_expanded x b df)). Qed.
Lemma fb_nll1 F C : (fun fb x : R => Weibull_2P_LL_fb x fb F C) = nll1 F C.
Proof. apply functional_extensionality. intros b. apply functional_extensionality. intros x. apply (C58_variants x b 0 0). Qed.

Section Oracles.
  Context (ls : rr -> option R -> list R -> list R -> result (R * R))
          (min2 : bool -> opt -> (R * R -> R) -> R * R -> bool * (R * R))
          (min1 : bool -> opt -> (R -> R) -> R -> bool * R)
          (cov2 : (R * R -> R) -> R * R -> option (R * R * R))
          (cov1 : (R -> R) -> R -> option R).

  (** What either fitter does with its inputs and the estimate [e] it settles on. *)
  Definition report (F C : list R) (force : option R) (al be : R) (name : string) (optimizer : option string) : result fitW :=
    let! s := errors cov2 cov1 (nll F C) (nll1 F C) force al be optimizer in
    let '(sa, sb, c) := s in
    Ok (mkW al be sa sb c name optimizer F C
      (goodness (Z.of_nat (length F + length C)) (Z.of_nat (if forcedb force then 1 else 2)) (LL2_at (nll F C) (nll1 F C) force al be))).
  Definition start (F C : list R) (method : string) (force : option R) : result (ls_method * (R * R)) :=
    LS_guess ls (chosen (nll F C) (nll1 F C) force) (if String.eqb method "MLE" then "LS"%string else method) force F C.

  Lemma ungrouped_is rows a : (forall c t q, In (c, t, q) rows -> (c = "F" \/ c = "C")%string /\ 0 <= t) ->
    Fit_Weibull_2P ls min2 min1 cov2 cov1 (ungrouped rows a) =
    let! k := fitters_input_checking D_Weibull_2P (ungrouped rows a) in
    let F := nonzero (items "F" rows) in let C := nonzero (items "C" rows) in let force := a_force_beta a in
    let! method := match i_method k with None => Err ValueError | Some m => Ok m end in
    let! g := start F C method force in
    let! e :=
      (if String.eqb method "MLE" then
        match force with
        | None => let! r := MLE_optimization (fun o p => min2 false o (nll F C) p) (nll F C) (i_optimizer k) (snd g) in Ok (snd r, MLE_name, option_map opt_name (snd (fst r)))
        | Some fb =>
            let! r := MLE_optimization (fun o p => min1 false o (nll1 F C fb) p) (nll1 F C fb) (i_optimizer k) (fst (snd g)) in
            Ok ((snd r, fb), MLE_name, option_map opt_name (snd (fst r)))
        end
      else Ok (snd g, LS_name (fst g), None)) in
    let '((al, be), name, optimizer) := e in report F C force al be name optimizer.
  Proof.
    intros HR. unfold Fit_Weibull_2P. destruct (fitters_input_checking D_Weibull_2P (ungrouped rows a)) as [k|] eqn:HK; [|reflexivity]. cbn [bind].
    destruct (inputs_are rows a k HR HK) as (-> & -> & _ & _ & ->). cbv zeta.
    assert (forall fb, (fun x : R => Weibull_2P_LL_fb x fb (nonzero (items "F" rows)) (nonzero (items "C" rows))) = nll1 (nonzero (items "F" rows)) (nonzero (items "C" rows)) fb) as E
      by (intros fb; exact (f_equal (fun f => f fb) (fb_nll1 (nonzero (items "F" rows)) (nonzero (items "C" rows))))).
    rewrite fb_nll1. destruct (a_force_beta a) as [fb|]; [rewrite (E fb)|].
    all:     change (fun p : R * R => LL (Weibull_2P (fst p) (snd p)) [] (nonzero (items "F" rows)) (nonzero (items "C" rows))) with (nll (nonzero (items "F" rows)) (nonzero (items "C" rows))); reflexivity.
  Qed.
  Lemma grouped_is columns rows a : documented columns rows ->
    Fit_Weibull_2P_grouped ls min2 min1 cov2 cov1 (Frame columns rows) a =
    let! k := fitters_input_checking D_Weibull_2P (ungrouped rows a) in
    let F := nonzero (items "F" rows) in let C := nonzero (items "C" rows) in let force := a_force_beta a in
    let o := one_optimizer (i_optimizer k) in
    let! method := match i_method k with None => Err AttributeError | Some m => Ok m end in
    let! g := start F C method force in
    let e :=
      if String.eqb method "MLE" then
        match force with
        | None =>
            let r := bic_runs (min2 true o (nll F C)) (nll F C) (ln (INR (length F + length C)) * 2) 10 (snd g) (IZR 1000000) in
            (if fst r then snd r else snd g, MLE_name, Some (opt_name o))
        | Some fb =>
            let r := bic_runs (min1 true o (nll1 F C fb)) (nll1 F C fb) (ln (INR (length F + length C)) * 1) 10 (fst (snd g)) (IZR 1000000) in
            ((if fst r then snd r else fst (snd g), fb), MLE_name, Some (opt_name o))
        end
      else (snd g, LS_name (fst g), None) in
    let '((al, be), name, optimizer) := e in report F C force al be name optimizer.
  Proof.
    intros HD. pose proof HD as (HC & HR). unfold Fit_Weibull_2P_grouped. rewrite (frame_ok _ _ HD). cbn [bind]. rewrite (same_inputs columns rows a HD).
    destruct (fitters_input_checking D_Weibull_2P (ungrouped rows a)) as [k|] eqn:HK; [|reflexivity]. cbn [bind].
    destruct (inputs_are rows a k HR HK) as (-> & -> & _ & _ & ->). 
    rewrite (proj2 (df_LL_expanded 0 0 (map to_row rows))). pose proof (grouped_nll (map to_row rows)) as E2. pose proof (grouped_nll1 (map to_row rows)) as E1.
    rewrite failures_items, censored_items in * by exact HR. rewrite E2, E1.
    destruct (a_force_beta a) as [fb|]; [|reflexivity]. rewrite (f_equal (fun f => f fb) E1 : (fun x : R => grouped_LL_fb x fb _ _ _ _) = _). reflexivity.
  Qed.
End Oracles.

(** The loops *)
Lemma bic_spec {P} (minimize : P -> bool * P) f c : forall left guess last r, bic_runs minimize f c left guess last = r ->
  exists k, (1 <= k <= Nat.max 1 left)%nat /\ r = rerun minimize k guess.
Proof.
  induction left as [|left IH]; intros guess last r H.
  - cbn [bic_runs] in H. destruct (minimize guess) as (ok, x) eqn:E. subst r. exists 1%nat. split; [lia|]. cbn [rerun]. now rewrite E.
  - cbn [bic_runs] in H. destruct (minimize guess) as (ok, x) eqn:E. destruct left as [|l].
    + subst r. exists 1%nat. split; [lia|]. cbn [rerun]. now rewrite E.
    + destruct (Rlt_dec (1 / 1000) (Rabs (c + 2 * f x - last))).
      * destruct (IH _ _ _ H) as (k & Hk & H1). exists (S k). split; [lia|]. rewrite H1. destruct k as [|k]; [lia|]. cbn [rerun]. now rewrite E.
      * subst r. exists 1%nat. split; [lia|]. cbn [rerun]. now rewrite E.
Qed.
Lemma rerun_settled {P} (minimize : P -> bool * P) guess x k : settles minimize guess x -> (1 <= k)%nat -> rerun minimize k guess = (true, x).
Proof.
  intros (H1 & H2) Hk. assert (forall k, (1 <= k)%nat -> rerun minimize k x = (true, x)) as K.
  { intros j. induction j as [|j IH]; intros Hj; [lia|]. destruct j as [|j]; [exact H2|]. change (rerun minimize (S j) (snd (minimize x)) = (true, x)). rewrite H2. apply IH. lia. }
  destruct k as [|k]; [lia|]. destruct k as [|k]; [exact H1|]. change (rerun minimize (S k) (snd (minimize guess)) = (true, x)). rewrite H1. apply K. lia.
Qed.
Lemma bic_settled {P} (minimize : P -> bool * P) f c left guess last x : settles minimize guess x -> bic_runs minimize f c left guess last = (true, x).
Proof. intros H. destruct (bic_spec minimize f c left guess last _ eq_refl) as (k & Hk & ->). apply rerun_settled; [exact H|lia]. Qed.
Lemma mle_settled {P} (minimize : opt -> P -> bool * P) f o guess x : settles (minimize o) guess x ->
  loglik_optimizer minimize f o guess = (true, Rabs (2 * f x), x).
Proof.
  intros H. destruct (runs_spec minimize f o 5 guess (IZR 1000000) _ eq_refl) as (k & Hk & H1 & H2). unfold loglik_optimizer. destruct (mle_runs minimize f 5 o guess (IZR 1000000)) as ((ok, l), y).
  cbn [fst snd] in *. rewrite (rerun_settled _ _ _ _ H) in H1 by lia. congruence.
Qed.
Lemma mle_one {P} (minimize : opt -> P -> bool * P) f oo guess x t : resolve_optimizer t = Ok oo -> oo <> Some "best"%string -> settles (minimize (one_optimizer oo)) guess x ->
  MLE_optimization minimize f oo guess = Ok (true, Some (one_optimizer oo), x).
Proof.
  intros HO HB HS. unfold MLE_optimization. destruct oo as [s|].
  - assert (s = "TNC" \/ s = "powell" \/ s = "L-BFGS-B" \/ s = "nelder-mead")%string as HN.
    { destruct t as [|s'|]; cbn [resolve_optimizer] in HO; try discriminate.
      repeat match type of HO with (if ?b then _ else _) = _ => destruct b; [injection HO as <-; auto; try (exfalso; apply HB; reflexivity)|] end. discriminate. }
    assert (optimizers_to_try (Some s) = Ok [one_optimizer (Some s)]) as -> by (destruct HN as [-> | [-> | [-> | ->]]]; reflexivity).
    cbn [bind attempts]. rewrite (mle_settled _ _ _ _ _ HS). reflexivity.
  - cbn [optimizers_to_try bind attempts]. cbn [one_optimizer] in HS. rewrite (mle_settled _ _ _ _ _ HS). reflexivity.
Qed.
