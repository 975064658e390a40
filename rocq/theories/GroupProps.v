(** Property C137: grouped data. *)
From Coquelicot Require Import Coquelicot.
From Coq Require Import String.
From Coq Require Import List Arith ZArith Reals Lra Lia Bool.
From Verif Require Import Base RealFacts Ext RList ConvertModel DistModel CIModel RegModel RegProofs SelModel SelSpec SelProofs FitModel FitProofs FArgModel InputModel GroupModel GroupSpec GroupProofs.
Import ListNotations.
Open Scope R_scope.

Section Oracles.
  (** The least squares routine, scipy's optimizers, and the inverses of the second derivatives. *)
  Context (ls : rr -> option R -> list R -> list R -> result (R * R))
          (min2 : bool -> opt -> (R * R -> R) -> R * R -> bool * (R * R))
          (min1 : bool -> opt -> (R -> R) -> R -> bool * R)
          (cov2 : (R * R -> R) -> R * R -> option (R * R * R))
          (cov1 : (R -> R) -> R -> option R).
  Notation fit := (Fit_Weibull_2P ls min2 min1 cov2 cov1).
  Notation fit_grouped := (Fit_Weibull_2P_grouped ls min2 min1 cov2 cov1).

  (** Least squares: the same answer, or the same error, as with the items listed one by one. *)
  Theorem C137_least_squares columns rows a m : documented columns rows ->
    resolve_method (a_method a) = Ok (Some m) -> m <> "MLE"%string -> fit_grouped (Frame columns rows) a = fit (ungrouped rows a).
  Proof.
    intros HD HM Hm. rewrite grouped_is by exact HD. rewrite ungrouped_is by exact (proj2 HD).
    destruct (fitters_input_checking D_Weibull_2P (ungrouped rows a)) as [k|] eqn:HK; [|reflexivity]. cbn [bind].
    destruct (inputs_are rows a k (proj2 HD) HK) as (_ & _ & HM' & _). rewrite HM in HM'. injection HM' as <-. cbn [bind].
    assert (String.eqb m "MLE" = false) as -> by (apply String.eqb_neq; exact Hm).
    destruct (start ls _ _ m (a_force_beta a)) as [(mm, g)|]; [|reflexivity]. cbn [bind fst snd]. reflexivity.
  Qed.

  (** Maximum likelihood, when the optimizer named (TNC if none is) finds its answer at once from the
      least squares estimates, whatever the limit on its iterations. *)
  Theorem C137_MLE_partial columns rows a o : documented columns rows ->
    resolve_method (a_method a) = Ok (Some "MLE"%string) -> resolve_optimizer (a_optimizer a) = Ok o -> o <> Some "best"%string ->
    let F := nonzero (items "F" rows) in let C := nonzero (items "C" rows) in
    (forall r g, ls r (a_force_beta a) F C = Ok g ->
      match a_force_beta a with
      | None => exists answer, forall i, settles (min2 i (one_optimizer o) (nll F C)) g answer
      | Some b => exists answer, forall i, settles (min1 i (one_optimizer o) (nll1 F C b)) (fst g) answer
      end) ->
    fit_grouped (Frame columns rows) a = fit (ungrouped rows a).
  Proof.
    intros HD HM HO Hb F C HS. rewrite grouped_is by exact HD. rewrite ungrouped_is by exact (proj2 HD).
    destruct (fitters_input_checking D_Weibull_2P (ungrouped rows a)) as [k|] eqn:HK; [|reflexivity]. cbn [bind].
    destruct (inputs_are rows a k (proj2 HD) HK) as (_ & _ & HM' & HO' & _). rewrite HM in HM'. injection HM' as <-. rewrite HO in HO'. injection HO' as <-. cbn [bind]. fold F C.
    destruct (start ls F C "MLE" (a_force_beta a)) as [g|] eqn:HG; [|reflexivity]. cbn [bind]. change (String.eqb "MLE" "MLE") with true. cbv iota.
    assert (exists r, ls r (a_force_beta a) F C = Ok (snd g)) as (r & Hr).
    { unfold start, LS_guess in HG. change (String.eqb (if String.eqb "MLE" "MLE" then "LS"%string else "MLE"%string) "RRX") with false in HG. change (String.eqb (if String.eqb "MLE" "MLE" then "LS"%string else "MLE"%string) "RRY") with false in HG. cbv iota in HG.
      apply bind_ok in HG. destruct HG as (gx & Hx & HG). apply bind_ok in HG. destruct HG as (gy & Hy & HG). injection HG as <-. unfold LS_choice.
      match goal with |- context [Rlt_dec ?u ?v] => destruct (Rlt_dec u v) end; [exists RRX|exists RRY]; assumption. }
    specialize (HS r (snd g) Hr). destruct (a_force_beta a) as [b|]; destruct HS as (x & Hx).
    - rewrite (bic_settled _ _ _ _ _ _ _ (Hx true)). rewrite (mle_one (fun o p => min1 false o (nll1 F C b) p) _ o _ x _ HO Hb (Hx false)). reflexivity.
    - rewrite (bic_settled _ _ _ _ _ _ _ (Hx true)). rewrite (mle_one (fun o p => min2 false o (nll F C) p) _ o _ x _ HO Hb (Hx false)). reflexivity.
  Qed.

  (** Whatever the optimizer does: the estimate is that of one to ten runs on the likelihood of the
      items listed one by one, and the least squares estimate if the last run fails; the goodness of
      fit is that of the items. *)
  Theorem C137_MLE_runs columns rows a w : documented columns rows ->
    resolve_method (a_method a) = Ok (Some "MLE"%string) -> a_force_beta a = None -> fit_grouped (Frame columns rows) a = Ok w ->
    let F := nonzero (items "F" rows) in let C := nonzero (items "C" rows) in
    exists o oo r g n ok x, resolve_optimizer (a_optimizer a) = Ok oo /\ o = one_optimizer oo /\ ls r None F C = Ok g /\ (1 <= n <= 10)%nat /\
      rerun (min2 true o (nll F C)) n g = (ok, x) /\ (w_alpha w, w_beta w) = (if ok then x else g) /\ w_optimizer w = Some (opt_name o) /\
      w_failures w = F /\ w_right_censored w = C /\ w_gof w = fit_gof (Weibull_2P (w_alpha w) (w_beta w)) false [] F C.
  Proof.
    intros HD HM HF H F C. rewrite grouped_is in H by exact HD. apply bind_ok in H. destruct H as (k & HK & H). cbv zeta in H.
    destruct (inputs_are rows a k (proj2 HD) HK) as (_ & _ & HM' & HO' & _). rewrite HM in HM'. injection HM' as HM'. rewrite <- HM' in H. cbn [bind] in H. rewrite HF in H. fold F C in H.
    apply bind_ok in H. destruct H as (g & HG & H). change (String.eqb "MLE" "MLE") with true in H. cbv iota in H.
    assert (exists r, ls r None F C = Ok (snd g)) as (r & Hr).
    { unfold start, LS_guess in HG. change (String.eqb (if String.eqb "MLE" "MLE" then "LS"%string else "MLE"%string) "RRX") with false in HG. change (String.eqb (if String.eqb "MLE" "MLE" then "LS"%string else "MLE"%string) "RRY") with false in HG. cbv iota in HG.
      apply bind_ok in HG. destruct HG as (gx & Hx & HG). apply bind_ok in HG. destruct HG as (gy & Hy & HG). injection HG as <-. unfold LS_choice.
      match goal with |- context [Rlt_dec ?u ?v] => destruct (Rlt_dec u v) end; [exists RRX|exists RRY]; assumption. }
    destruct (bic_spec (min2 true (one_optimizer (i_optimizer k)) (nll F C)) (nll F C) (ln (INR (length F + length C)) * 2) 10 (snd g) (IZR 1000000) _ eq_refl) as (n & Hn & E).
    rewrite E in H. destruct (rerun (min2 true (one_optimizer (i_optimizer k)) (nll F C)) n (snd g)) as (ok, x) eqn:ER. cbn [fst snd] in H.
    exists (one_optimizer (i_optimizer k)), (i_optimizer k), r, (snd g), n, ok, x. split; [exact HO'|]. split; [reflexivity|]. split; [exact Hr|]. split; [simpl in Hn; lia|]. split; [exact ER|].
    destruct (if ok then x else snd g) as (al, be). unfold report in H. apply bind_ok in H. destruct H as (((sa, sb), c) & _ & H). injection H as <-. cbn [w_alpha w_beta w_optimizer w_failures w_right_censored w_gof].
    repeat split.
  Qed.
  (** What is reported, by Fit_Weibull_2P and by the grouped fitter alike. Least squares: the answer of the
      routine named, or with "LS" that of the two whose log-likelihood is closer to zero. *)
  Lemma guess_is f m force F C g : LS_guess ls f m force F C = Ok g ->
    (m = "RRX"%string -> fst g = M_RRX) /\ (m = "RRY"%string -> fst g = M_RRY) /\
    ls (match fst g with M_RRX => RRX | M_RRY => RRY end) force F C = Ok (snd g) /\
    (m <> "RRX"%string -> m <> "RRY"%string -> forall r p, ls r force F C = Ok p -> Rabs (f (snd g)) <= Rabs (f p)).
  Proof.
    unfold LS_guess. destruct (String.eqb_spec m "RRX") as [->|N1].
    { intros H. apply bind_ok in H. destruct H as (p & Hp & H). injection H as <-. cbn [fst snd]. repeat split; try congruence; try (intros Q; discriminate Q); exact Hp. }
    destruct (String.eqb_spec m "RRY") as [->|N2].
    { intros H. apply bind_ok in H. destruct H as (p & Hp & H). injection H as <-. cbn [fst snd]. repeat split; try congruence; try (intros Q; discriminate Q); exact Hp. }
    intros H. apply bind_ok in H. destruct H as (px & Hx & H). apply bind_ok in H. destruct H as (py & Hy & H). injection H as <-.
    split; [congruence|]. split; [congruence|]. unfold LS_choice. rewrite !Rabs_Ropp. destruct (Rlt_dec _ _) as [L|L]; cbn [fst snd]; (split; [assumption|]); intros _ _ [] p Hp; rewrite Hp in *; (replace p with px by congruence) || (replace p with py by congruence); lra.
  Qed.
  Definition of_method (m : string) (force : option R) (F C : list R) (w : fitW) : Prop :=
    exists r, ls r force F C = Ok (w_alpha w, w_beta w) /\ w_optimizer w = None /\
      w_method w = (match r with RRX => "Least Squares Estimation (RRX)" | RRY => "Least Squares Estimation (RRY)" end)%string /\
      (m = "RRX"%string -> r = RRX) /\ (m = "RRY"%string -> r = RRY) /\
      (m = "LS"%string -> forall r' p, ls r' force F C = Ok p ->
         let nll_of q := match force with None => nll F C q | Some b => nll1 F C b (fst q) end in Rabs (nll_of (w_alpha w, w_beta w)) <= Rabs (nll_of p)).
  Theorem C137_methods columns rows a m w : documented columns rows -> resolve_method (a_method a) = Ok (Some m) -> m <> "MLE"%string ->
    (fit_grouped (Frame columns rows) a = Ok w \/ fit (ungrouped rows a) = Ok w) -> of_method m (a_force_beta a) (nonzero (items "F" rows)) (nonzero (items "C" rows)) w.
  Proof.
    intros HD HM Hm H. rewrite (C137_least_squares columns rows a m HD HM Hm) in H. assert (fit (ungrouped rows a) = Ok w) as E by tauto. clear H.
    rewrite ungrouped_is in E by exact (proj2 HD). apply bind_ok in E. destruct E as (k & HK & E). cbv zeta in E.
    destruct (inputs_are rows a k (proj2 HD) HK) as (_ & _ & HM' & _). rewrite HM in HM'. injection HM' as HM'. rewrite <- HM' in E. cbn [bind] in E.
    assert (String.eqb m "MLE" = false) as Em by (apply String.eqb_neq; exact Hm). unfold start in E. rewrite Em in E.
    apply bind_ok in E. destruct E as (g & HG & E). cbn [bind] in E. destruct (guess_is _ _ _ _ _ _ HG) as (G1 & G2 & G3 & G4).
    destruct g as (mm & (al, be)). cbn [fst snd] in *. unfold report in E. apply bind_ok in E. destruct E as (((sa, sb), c) & _ & E). injection E as <-.
    unfold of_method. cbn [w_alpha w_beta w_optimizer w_method]. exists (match mm with M_RRX => RRX | M_RRY => RRY end).
    split; [exact G3|]. split; [reflexivity|]. split; [now destruct mm|]. split; [intros Q; now rewrite (G1 Q)|]. split; [intros Q; now rewrite (G2 Q)|].
    intros -> r' p Hp. cbv zeta. specialize (G4 ltac:(discriminate) ltac:(discriminate) r' p Hp). unfold chosen in G4. destruct (a_force_beta a); exact G4.
  Qed.
  (** The standard errors are the square roots of the variances, alpha's first, at the estimates; with
      force_beta beta is as given and has none. *)
  Theorem C137_errors columns rows a w : documented columns rows ->
    (fit_grouped (Frame columns rows) a = Ok w \/ fit (ungrouped rows a) = Ok w) ->
    let F := nonzero (items "F" rows) in let C := nonzero (items "C" rows) in
    w_failures w = F /\ w_right_censored w = C /\
    match a_force_beta a with
    | None => forall va vb c, cov2 (nll F C) (w_alpha w, w_beta w) = Some (va, vb, c) -> w_alpha_SE w = sqrt (Rabs va) /\ w_beta_SE w = sqrt (Rabs vb) /\ w_cov w = c
    | Some b => forall va, cov1 (nll1 F C b) (w_alpha w) = Some va -> w_alpha_SE w = sqrt (Rabs va) /\ w_beta_SE w = 0 /\ w_cov w = 0
    end.
  Proof.
    intros HD H F C.
    assert (exists al be name o, report cov2 cov1 F C (a_force_beta a) al be name o = Ok w) as (al & be & name & o & E).
    { destruct H as [H|H]; [rewrite grouped_is in H by exact HD|rewrite ungrouped_is in H by exact (proj2 HD)]; apply bind_ok in H; destruct H as (k & HK & H); cbv zeta in H;
        apply bind_ok in H; destruct H as (mt & _ & H); apply bind_ok in H; destruct H as (g & _ & H).
      - fold F C in H. match type of H with context [if ?b then ?x else ?y] => destruct (if b then x else y) as (((al, be), name), o) end. exists al, be, name, o. exact H.
      - apply bind_ok in H. destruct H as ((((al, be), name), o) & _ & H). exists al, be, name, o. exact H. }
    unfold report in E. apply bind_ok in E. destruct E as (((sa, sb), c) & ES & E). injection E as <-. cbn [w_failures w_right_censored w_alpha w_beta w_alpha_SE w_beta_SE w_cov].
    split; [reflexivity|]. split; [reflexivity|]. unfold errors in ES. destruct (a_force_beta a) as [b|].
    - intros va HV. rewrite HV in ES. injection ES as <- <- <-. auto.
    - intros va vb c' HV. rewrite HV in ES. injection ES as <- <- <-. auto.
  Qed.
End Oracles.
Print Assumptions C137_methods.
Print Assumptions C137_errors.
Print Assumptions C137_least_squares.
Print Assumptions C137_MLE_partial.
Print Assumptions C137_MLE_runs.

(** A dataframe that is not as documented raises, unless its fault is a time below zero. *)
Theorem C137_checks ls min2 min1 cov2 cov1 columns rows a :
  (~ (forall c, In c columns -> c = "category" \/ c = "time" \/ c = "quantity")%string \/
   In "category"%string columns /\ exists c t q, In (c, t, q) rows /\ c <> "F"%string /\ c <> "C"%string) ->
  Fit_Weibull_2P_grouped ls min2 min1 cov2 cov1 (Frame columns rows) a = Err ValueError /\ Fit_Weibull_2P_grouped ls min2 min1 cov2 cov1 Not_a_frame a = Err ValueError.
Proof.
  intros H. split; [|reflexivity]. unfold Fit_Weibull_2P_grouped, frame_rows.
  destruct (forallb (fun c => str_in c ["category"; "time"; "quantity"]%string) columns) eqn:E; [|reflexivity]. cbn [negb].
  destruct H as [H|[HC (c & t & q & Hr & H1 & H2)]].
  - exfalso. apply H. intros c Hc. rewrite forallb_forall in E. specialize (E c Hc). cbn in E. repeat (apply orb_true_iff in E; destruct E as [E|E]; [apply String.eqb_eq in E; auto|]). discriminate.
  - assert (str_in "category" columns = true) as -> by (unfold str_in; apply existsb_exists; exists "category"%string; split; [exact HC|reflexivity]). cbn [negb].
    replace (forallb (fun r => str_in (fst (fst r)) ["F"; "C"]%string) rows) with false; [reflexivity|]. symmetry. apply not_true_iff_false. intros HT. rewrite forallb_forall in HT.
    specialize (HT _ Hr). cbn in HT. apply String.eqb_neq in H1, H2. rewrite H1, H2 in HT. discriminate.
Qed.
Print Assumptions C137_checks.

(** ** Where the two fitters differ *)

Definition three_columns : list string := ["category"; "time"; "quantity"]%string.
Definition two_rows : list (string * R * nat) := [("F"%string, 2, 1%nat); ("F"%string, 3, 1%nat)].
Lemma documented_two : documented three_columns two_rows.
Proof.
  split; [intros c; cbn; intuition congruence|]. intros c t q H. cbn in H. destruct H as [H|[H|[]]]; injection H as <- <- <-; split; auto; lra.
Qed.
Definition mle_args (o : text) : fit_args := mkFit D_none D_none (Text "MLE") o (T_float, 95 / 100) Q_None None None (Text "time").
Definition flat_ls (r : rr) (f : option R) (F C : list R) : result (R * R) := Ok (1, 1).
Definition flat_cov2 (f : R * R -> R) (p : R * R) : option (R * R * R) := Some (1, 1, 0).
Definition flat_cov1 (f : R -> R) (a : R) : option R := Some 1.
Lemma two_items : nonzero (items "F" two_rows) = [2; 3] /\ nonzero (items "C" two_rows) = [].
Proof.
  split; [|reflexivity]. unfold two_rows. cbn [items]. change (String.eqb "F" "F") with true. cbv iota. cbn [repeat app]. unfold nonzero. cbn [filter]. unfold Rneqb.
  destruct (Req_EM_T 2 0); [lra|]. destruct (Req_EM_T 3 0); [lra|]. reflexivity.
Qed.
Lemma two_checked o oo : resolve_optimizer o = Ok oo -> fitters_input_checking D_Weibull_2P (ungrouped two_rows (mle_args o)) = Ok (mkInputs [2; 3] [] (Some "MLE"%string) oo (95 / 100) Q_None None None (Some "time"%string)).
Proof.
  intros HO. unfold fitters_input_checking, ungrouped, mle_args. cbn [a_failures a_right_censored a_method a_optimizer a_CI a_quantiles a_force_beta a_force_sigma a_CI_type bind is_some orb fst snd].
  rewrite check_weibull by (apply items_nonneg; exact (proj2 documented_two)). destruct two_items as (-> & ->).
  assert (unique_count [2; 3] = 2%nat) as ->. { unfold unique_count. cbn [nodup in_dec]. destruct (in_dec Req_EM_T 2 [3]) as [[H|[]]|]; [lra|reflexivity]. }
  cbn [bind fst snd]. change ((2 <? 2)%nat) with false. cbv iota. cbn [bind fst snd]. unfold le. destruct (Rle_dec (95 / 100) 0); [lra|]. destruct (Rle_dec 1 (95 / 100)); [lra|]. cbn [orb]. rewrite HO. reflexivity.
Qed.
Lemma nll_two a : 0 < a -> nll [2; 3] [] (a, 1) = 2 * ln a + 5 / a.
Proof.
  intros Ha. unfold nll, LL. cbn [fst snd map length log0 logf logR rsum]. rewrite !Rpower_1 by (apply Rdiv_lt_0_compat; lra). replace (1 / a) with (/ a) by (field; lra). rewrite ln_Rinv by exact Ha. generalize (ln a), (ln (2 / a)), (ln (3 / a)). intros u v z. unfold rsum. cbn [fold_right]. field. lra.
Qed.
(** The likelihood at (1, 1) and at (5/2, 1). *)
Lemma nll_11 : nll [2; 3] [] (1, 1) = 5.
Proof. rewrite nll_two by lra. rewrite ln_1. lra. Qed.
Lemma nll_51 : 0 < nll [2; 3] [] (5 / 2, 1) < 5.
Proof.
  rewrite nll_two by lra. assert (0 < ln (5 / 2)) by (rewrite <- ln_1; apply ln_increasing; lra).
  assert (ln (5 / 2) < 3 / 2). { rewrite <- (ln_exp (3 / 2)). apply ln_increasing; [lra|]. pose proof (exp_ineq1 (3 / 2) ltac:(lra)). lra. } lra.
Qed.
Lemma start_two : exists m, start flat_ls [2; 3] [] "MLE" None = Ok (m, (1, 1)).
Proof.
  exists M_RRY. unfold start, LS_guess, flat_ls. change (String.eqb (if String.eqb "MLE" "MLE" then "LS"%string else "MLE"%string) "RRX") with false. change (String.eqb (if String.eqb "MLE" "MLE" then "LS"%string else "MLE"%string) "RRY") with false. cbv iota. cbn [bind].
  unfold LS_choice. match goal with |- context [Rlt_dec ?u ?v] => destruct (Rlt_dec u v) as [H|] end; [exfalso; exact (Rlt_irrefl _ H)|reflexivity].
Qed.
Lemma loglik_two F C a o name sa sb c n k : w_gof (mkW a 1 sa sb c name o F C (goodness n k (LL2_at (nll [2; 3] []) (nll1 [2; 3] []) None a 1))) = goodness n k (2 * nll [2; 3] [] (a, 1)).
Proof. reflexivity. Qed.

(** optimizer="best": Fit_Weibull_2P tries the four optimizers and takes the best answer, the grouped
    fitter runs TNC only. *)
Definition best_min2 (i : bool) (o : opt) (f : R * R -> R) (g : R * R) : bool * (R * R) := (true, match o with TNC => (1, 1) | _ => (5 / 2, 1) end).
Definition no_min1 (i : bool) (o : opt) (f : R -> R) (g : R) : bool * R := (false, g).
Lemma two_ungrouped min2 o oo : resolve_optimizer o = Ok oo -> 
  Fit_Weibull_2P flat_ls min2 no_min1 flat_cov2 flat_cov1 (ungrouped two_rows (mle_args o)) =
  let! r := MLE_optimization (fun o p => min2 false o (nll [2; 3] []) p) (nll [2; 3] []) oo (1, 1) in
  Ok (mkW (fst (snd r)) (snd (snd r)) (sqrt (Rabs 1)) (sqrt (Rabs 1)) 0 MLE_name (option_map opt_name (snd (fst r))) [2; 3] [] (goodness 2 2 (2 * nll [2; 3] [] (snd r)))).
Proof.
  intros HO. rewrite ungrouped_is by exact (proj2 documented_two). rewrite (two_checked _ _ HO). cbn [bind i_method i_optimizer]. destruct two_items as (-> & ->). cbn [mle_args a_force_beta].
  destruct start_two as (m & ->). cbn [bind snd fst]. change (String.eqb "MLE" "MLE") with true. cbv iota.
  destruct (MLE_optimization _ _ oo (1, 1)) as [((ok, op), (x, y))|]; reflexivity.
Qed.
Lemma two_grouped min2 o oo : resolve_optimizer o = Ok oo ->
  Fit_Weibull_2P_grouped flat_ls min2 no_min1 flat_cov2 flat_cov1 (Frame three_columns two_rows) (mle_args o) =
  let r := bic_runs (min2 true (one_optimizer oo) (nll [2; 3] [])) (nll [2; 3] []) (ln (INR 2) * 2) 10 (1, 1) (IZR 1000000) in
  let p := if fst r then snd r else (1, 1) in
  Ok (mkW (fst p) (snd p) (sqrt (Rabs 1)) (sqrt (Rabs 1)) 0 MLE_name (Some (opt_name (one_optimizer oo))) [2; 3] [] (goodness 2 2 (2 * nll [2; 3] [] p))).
Proof.
  intros HO. rewrite grouped_is by exact documented_two. rewrite (two_checked _ _ HO). cbn [bind i_method i_optimizer]. destruct two_items as (-> & ->). cbn [mle_args a_force_beta].
  destruct start_two as (m & ->). cbn [bind snd fst]. change (String.eqb "MLE" "MLE") with true. cbv iota. change (length [2; 3] + length (@nil R))%nat with 2%nat.
  cbv zeta. destruct (bic_runs _ _ _ 10 _ _) as (ok, (x, y)). destruct ok; reflexivity.
Qed.
Theorem C137_best_refuted : exists ls min2 min1 cov2 cov1 columns rows a w w',
  documented columns rows /\ a_optimizer a = Text "best"%string /\
  Fit_Weibull_2P_grouped ls min2 min1 cov2 cov1 (Frame columns rows) a = Ok w /\ Fit_Weibull_2P ls min2 min1 cov2 cov1 (ungrouped rows a) = Ok w' /\
  loglik (w_gof w) < loglik (w_gof w').
Proof.
  exists flat_ls, best_min2, no_min1, flat_cov2, flat_cov1, three_columns, two_rows, (mle_args (Text "best")). eexists. eexists.
  split; [exact documented_two|]. split; [reflexivity|]. rewrite (two_grouped best_min2 (Text "best") (Some "best"%string) eq_refl). rewrite (two_ungrouped best_min2 (Text "best") (Some "best"%string) eq_refl).
  rewrite (bic_settled _ _ _ 10 _ _ (1, 1)) by (split; reflexivity). cbv zeta. cbn [fst snd]. split; [reflexivity|].
  assert (MLE_optimization (fun o p => best_min2 false o (nll [2; 3] []) p) (nll [2; 3] []) (Some "best"%string) (1, 1) = Ok (true, Some L_BFGS_B, (5 / 2, 1))) as ->.
  { unfold MLE_optimization. change (optimizers_to_try (Some "best"%string)) with (Ok [TNC; L_BFGS_B; Nelder_Mead; Powell]). cbn [bind]. rewrite attempts_all. cbn [map].
    rewrite (mle_settled (fun o p => best_min2 false o (nll [2; 3] []) p) _ TNC _ (1, 1)) by (split; reflexivity).
    rewrite (mle_settled (fun o p => best_min2 false o (nll [2; 3] []) p) _ L_BFGS_B _ (5 / 2, 1)) by (split; reflexivity).
    rewrite (mle_settled (fun o p => best_min2 false o (nll [2; 3] []) p) _ Nelder_Mead _ (5 / 2, 1)) by (split; reflexivity).
    rewrite (mle_settled (fun o p => best_min2 false o (nll [2; 3] []) p) _ Powell _ (5 / 2, 1)) by (split; reflexivity).
    pose proof nll_51. rewrite nll_11. rewrite !Rabs_right by lra. set (v := nll [2; 3] [] (5 / 2, 1)) in *. cbn [filter a_ok fst snd first_min]. unfold a_LL. cbn [fst snd].
    destruct (Rlt_dec (2 * v) (2 * 5)); [|lra]. cbn [fst snd]. destruct (Rlt_dec (2 * v) (2 * v)); [lra|]. cbn [fst snd]. destruct (Rlt_dec (2 * v) (2 * v)); [lra|]. reflexivity. }
  cbn [bind fst snd]. split; [reflexivity|]. cbn [w_gof goodness loglik]. pose proof nll_51. rewrite nll_11. lra.
Qed.
Print Assumptions C137_best_refuted.

(** By default: if TNC fails Fit_Weibull_2P goes on to the other optimizers, the grouped fitter
    returns the least squares estimate. *)
Definition tnc_fails (i : bool) (o : opt) (f : R * R -> R) (g : R * R) : bool * (R * R) := match o with TNC => (false, g) | _ => (true, (5 / 2, 1)) end.
Theorem C137_default_refuted : exists ls min2 min1 cov2 cov1 columns rows a w w',
  documented columns rows /\ a_optimizer a = No_text /\
  Fit_Weibull_2P_grouped ls min2 min1 cov2 cov1 (Frame columns rows) a = Ok w /\ Fit_Weibull_2P ls min2 min1 cov2 cov1 (ungrouped rows a) = Ok w' /\
  loglik (w_gof w) < loglik (w_gof w') /\ w_method w = "Maximum Likelihood Estimation (MLE)"%string.
Proof.
  exists flat_ls, tnc_fails, no_min1, flat_cov2, flat_cov1, three_columns, two_rows, (mle_args No_text). eexists. eexists.
  split; [exact documented_two|]. split; [reflexivity|]. rewrite (two_grouped tnc_fails No_text None eq_refl). rewrite (two_ungrouped tnc_fails No_text None eq_refl).
  assert (bic_runs (tnc_fails true (one_optimizer None) (nll [2; 3] [])) (nll [2; 3] []) (ln (INR 2) * 2) 10 (1, 1) (IZR 1000000) = (false, (1, 1))) as ->.
  { destruct (bic_spec (tnc_fails true (one_optimizer None) (nll [2; 3] [])) (nll [2; 3] []) (ln (INR 2) * 2) 10 (1, 1) (IZR 1000000) _ eq_refl) as (n & Hn & ->). clear Hn. induction n as [|n IH]; [reflexivity|]. destruct n; [reflexivity|exact IH]. }
  cbv zeta. cbn [fst snd]. split; [reflexivity|].
  assert (exists l, loglik_optimizer (fun o p => tnc_fails false o (nll [2; 3] []) p) (nll [2; 3] []) TNC (1, 1) = (false, l, (1, 1))) as (l & EL).
  { destruct (runs_spec (fun o p => tnc_fails false o (nll [2; 3] []) p) (nll [2; 3] []) TNC 5 (1, 1) (IZR 1000000) _ eq_refl) as (n & Hn & H1 & _). unfold loglik_optimizer.
    destruct (mle_runs (fun o p => tnc_fails false o (nll [2; 3] []) p) (nll [2; 3] []) 5 TNC (1, 1) (IZR 1000000)) as ((ok, l), x). cbn [fst snd] in H1. exists l.
    assert (forall k, rerun (tnc_fails false TNC (nll [2; 3] [])) k (1, 1) = (false, (1, 1))) as K by (induction k as [|[|k] IH]; [reflexivity|reflexivity|exact IH]).
    change (rerun (fun p => tnc_fails false TNC (nll [2; 3] []) p) n (1, 1)) with (rerun (tnc_fails false TNC (nll [2; 3] [])) n (1, 1)) in H1. rewrite K in H1. congruence. }
  assert (MLE_optimization (fun o p => tnc_fails false o (nll [2; 3] []) p) (nll [2; 3] []) None (1, 1) = Ok (true, Some L_BFGS_B, (5 / 2, 1))) as ->.
  { unfold MLE_optimization. cbn [optimizers_to_try bind attempts]. rewrite EL. cbn [fst snd andb].
    rewrite (mle_settled (fun o p => tnc_fails false o (nll [2; 3] []) p) _ L_BFGS_B _ (5 / 2, 1)) by (split; reflexivity). reflexivity. }
  cbn [bind fst snd]. split; [reflexivity|]. cbn [w_gof goodness loglik w_method]. pose proof nll_51. rewrite nll_11. split; [lra|reflexivity].
Qed.
Print Assumptions C137_default_refuted.

(** Rows at or below zero have no effect; Fit_Weibull_2P refuses times below zero. *)
Theorem C137_dropped ls min2 min1 cov2 cov1 columns rows a : (forall c t q, In (c, t, q) rows -> (c = "F" \/ c = "C")%string) ->
  Fit_Weibull_2P_grouped ls min2 min1 cov2 cov1 (Frame columns rows) a =
  Fit_Weibull_2P_grouped ls min2 min1 cov2 cov1 (Frame columns (filter (fun r => Rltb' 0 (snd (fst r))) rows)) a.
Proof.
  intros HC. unfold Fit_Weibull_2P_grouped.
  set (rows' := filter (fun r : string * R * nat => Rltb' 0 (snd (fst r))) rows).
  assert (forall r0, (forall c t q, In (c, t, q) r0 -> (c = "F" \/ c = "C")%string) -> forallb (fun r : string * R * nat => str_in (fst (fst r)) ["F"; "C"]%string) r0 = true) as HB.
  { intros r0 H. apply forallb_forall. intros ((c, t), q) Hr. destruct (H _ _ _ Hr) as [-> | ->]; reflexivity. }
  assert (kept_rows (map to_row rows) = kept_rows (map to_row rows')) as HK.
  { subst rows'. clear. unfold kept_rows. induction rows as [|((c, t), q) r IH]; [reflexivity|]. cbn [map filter fst snd]. change (row_time (to_row (c, t, q))) with t.
    destruct (Rltb' 0 t) eqn:E; [|exact IH]. cbn [map filter]. change (row_time (to_row (c, t, q))) with t. rewrite E. f_equal. exact IH. }
  unfold frame_rows. rewrite (HB rows HC). rewrite (HB rows') by (intros c t q H; apply filter_In in H; destruct H as [H _]; eapply HC; exact H).
  destruct (negb (forallb (fun c => str_in c ["category"; "time"; "quantity"]%string) columns)); [reflexivity|].
  destruct (negb (str_in "category" columns)); [reflexivity|]. cbn [negb]. destruct (negb (str_in "time" columns)); [reflexivity|]. destruct (negb (str_in "quantity" columns)); [reflexivity|]. cbn [bind].
  unfold df_failures, df_censored, df_n, F_rows, C_rows. rewrite HK. reflexivity.
Qed.
Print Assumptions C137_dropped.
Theorem C137_negative_refuted : exists ls min2 min1 cov2 cov1 rows a w,
  Fit_Weibull_2P_grouped ls min2 min1 cov2 cov1 (Frame three_columns rows) a = Ok w /\ Fit_Weibull_2P ls min2 min1 cov2 cov1 (ungrouped rows a) = Err ValueError.
Proof.
  exists flat_ls, tnc_fails, no_min1, flat_cov2, flat_cov1, (("F"%string, - 1, 1%nat) :: two_rows), (mle_args No_text). eexists. split.
  - rewrite C137_dropped by (intros c t q H; destruct H as [H|H]; [injection H as <- <- <-; auto|apply (proj2 documented_two) in H; tauto]).
    unfold two_rows. cbn [filter fst snd]. unfold Rltb'. destruct (Rlt_dec 0 (- 1)); [lra|]. destruct (Rlt_dec 0 2); [|lra]. destruct (Rlt_dec 0 3); [|lra]. fold two_rows.
    rewrite (two_grouped tnc_fails No_text None eq_refl). reflexivity.
  - unfold Fit_Weibull_2P, fitters_input_checking, ungrouped. cbn [a_failures a_right_censored bind items]. change (String.eqb "F" "F") with true. cbv iota. cbn [repeat app].
    unfold check_data. cbn [app length Nat.eqb existsb]. unfold Rltb' at 1. destruct (Rlt_dec (- 1) 0); [|lra]. reflexivity.
Qed.
Print Assumptions C137_negative_refuted.
Example C137_case : documented three_columns [("F"%string, 24, 1%nat); ("F"%string, 39, 2%nat); ("C"%string, 50, 3%nat)] /\
  items "F" [("F"%string, 24, 1%nat); ("F"%string, 39, 2%nat); ("C"%string, 50, 3%nat)] = [24; 39; 39] /\
  settles (best_min2 true TNC (nll [2; 3] [])) (7, 7) (1, 1).
Proof.
  split; [|split; [reflexivity|split; reflexivity]]. split; [intros c; cbn; intuition congruence|]. intros c t q H. cbn in H. destruct H as [H|[H|[H|[]]]]; injection H as <- <- <-; split; auto; lra.
Qed.
