(** Model of the five fitters of combined Weibull models (Fitters.py: Fit_Weibull_Mixture 3620-3910,
    Fit_Weibull_CR 4125-4352, Fit_Weibull_DSZI 4547-4725, Fit_Weibull_DS 4925-5068, Fit_Weibull_ZI
    5242-5395) from the arguments to the attributes, and of their bounds in MLE_optimization (Utils.py
    5605-5621). Left out: warnings, printing, the plot; the kernel density estimate that proposes the
    dividing line (3640-3689, 4138-4187) is an oracle. The mixture and the competing risks fitter build the
    object before the limits of the parameters; the order only matters for which of two errors is raised. *)
From Coquelicot Require Import Coquelicot.
From Coq Require Import String.
From Coq Require Import List Arith ZArith Reals Bool.
From Verif Require Import Base Ext Gauss RList ConvertModel DistModel CombModel NonparModel CIModel SelModel InputModel FitModel RegModel FArgModel PlotModel GroupModel FullFitModel.
Import ListNotations.
Open Scope R_scope.

(** The parameters in the order of LL: 3975, 4420, 4806, 5131, 5469 *)
Definition special_model (d : dname) (p : list R) : fitter :=
  let v i := nth i p 0 in
  match d with
  | D_Weibull_Mixture => Weibull_Mixture (v 0%nat) (v 1%nat) (v 2%nat) (v 3%nat) (v 4%nat)
  | D_Weibull_CR => Weibull_CR (v 0%nat) (v 1%nat) (v 2%nat) (v 3%nat)
  | D_Weibull_DSZI => Weibull_DSZI (v 0%nat) (v 1%nat) (v 2%nat) (v 3%nat)
  | D_Weibull_DS => Weibull_DS (v 0%nat) (v 1%nat) (v 2%nat)
  | _ => Weibull_ZI (v 0%nat) (v 1%nat) (v 2%nat)
  end.
(** Utils.py 5605-5621 *)
Definition special_bounds (d : dname) : list (option R * option R) :=
  let weibull := (Some (1 / 10000), None) in
  let defective := (Some (1 / 100000), Some 1) in
  let zeros := (Some 0, Some (99999 / 100000)) in
  match d with
  | D_Weibull_Mixture => [weibull; weibull; weibull; weibull; (Some (1 / 10000), Some (9999 / 10000))]
  | D_Weibull_CR => [weibull; weibull; weibull; weibull]
  | D_Weibull_DSZI => [weibull; weibull; defective; zeros]
  | D_Weibull_DS => [weibull; weibull; defective]
  | _ => [weibull; weibull; zeros]
  end.
(** 4547-4553, 5242-5248: the fitters that put the failures at 0 aside. *)
Definition takes_zeros (d : dname) : bool := match d with D_Weibull_DSZI | D_Weibull_ZI => true | _ => false end.
(** Where ZI is among the parameters. *)
Definition ZI_of (d : dname) (p : list R) : R := match d with D_Weibull_DSZI => nth 3 p 0 | _ => nth 2 p 0 end.
(** The CDF method of the object, as [fitted_PDF] and [fitted_SF] in FitModel. *)
Definition fitted_CDF (o : fitted) (X : list R) : result (list R) :=
  match o with
  | Single d => CDF d X
  | Mixture ds ps => let! ps := mix_proportions ds (Some ps) in let! c := mix_combine ds ps X in Ok (mix_cdf c)
  | CompetingRisks ds => let! c := cr_combine ds X in Ok (cr_cdf c)
  | Dszi DS ZI d => let! q := dszi_init DS ZI in dszi_CDF (fst q) (snd q) d X
  end.
(** np.where(x == 0, ZI, y): 4716, 5386 *)
Definition zeros_at (ZI : R) (x y : list R) : list R := zip (fun a b => if Req_EM_T a 0 then ZI else b) x y.

Record special := mkSpecial {
  s_params : list R; s_limits : list limits; s_distribution : fitted; s_optimizer : option string; s_gof : gof; s_AD : option R }.

Section Special.
  (** [kde]: the dividing line found from scipy's kernel density estimate; the others as in FullFitModel. *)
  Context (ls : dname -> option rr -> option R -> list R -> list R -> result (list R))
          (minimize : list (option R * option R) -> opt -> (list R -> R) -> list R -> bool * list R)
          (inv : (list R -> R) -> list R -> option (nat -> nat -> R))
          (sort : list (nat * NonparModel.row) -> list (nat * NonparModel.row))
          (gj : gamma_jac) (kde : list R -> R).

  (** A call of Fit_Weibull_2P with the other arguments at their defaults: 3718-3731, 4216-4229, 4575-4582,
      4941-4948, 5261-5269 *)
  Definition weibull_fit (CI : R) (optimizer : option string) (F : list R) (C : data) : result full :=
    fit_plain ls minimize inv sort gj D_Weibull_2P
      (mkFit (D_seq F) C (Text "MLE") match optimizer with Some o => Text o | None => No_text end (T_float, CI) Q_None None None (Text "time")).
  (** max(y) of plotting_positions(failures, right_censored): 4565-4568, 4935-4938 *)
  Definition last_position (F C : list R) : result R :=
    let! xy := plotting_positions_unsorted None (sort (indexed (all_rows F C))) in
    match snd xy with [] => Err ValueError | y :: r => Ok (fold_right Rmax y r) end.

  (** The initial guess. [all]: the failures with those at 0 in the fitters that keep them; [F]: the others.
      3684-3742, 4182-4236, 4558-4589, 4933-4953, 5253-5276 *)
  Definition special_guess (d : dname) (optimizer : option string) (CI : R) (all zeros F C : list R) : result (list R) :=
    let n := INR (length all + length C) in
    match d with
    | D_Weibull_Mixture =>
        let dl := group_line (kde F) F in
        let! r1 := weibull_fit (95 / 100) optimizer (group_1 dl F) (D_seq (group_1 dl C)) in
        let! r2 := weibull_fit (95 / 100) optimizer (group_2 dl F) (D_seq (group_2 dl C)) in
        Ok [nth 0 (f_params r1) 0; nth 1 (f_params r1) 0; nth 0 (f_params r2) 0; nth 1 (f_params r2) 0;
            INR (length (group_1 dl F) + length (group_1 dl C)) / n]
    | D_Weibull_CR =>
        let dl := group_line (kde F) F in
        let! r1 := weibull_fit (95 / 100) None (group_1 dl F) (D_seq (group_1 dl C)) in
        let! r2 := weibull_fit (95 / 100) None (group_2 dl F) (D_seq (group_2 dl C)) in
        Ok [nth 0 (f_params r1) 0; nth 1 (f_params r1) 0; nth 0 (f_params r2) 0; nth 1 (f_params r2) 0]
    | D_Weibull_DSZI =>
        let! DS := last_position all C in
        let! r := weibull_fit (95 / 100) optimizer F D_none in
        Ok [nth 0 (f_params r) 0; nth 1 (f_params r) 0; DS; INR (length zeros) / n]
    | D_Weibull_DS =>
        let! DS := last_position F C in
        let! r := weibull_fit (95 / 100) optimizer F D_none in
        Ok [nth 0 (f_params r) 0; nth 1 (f_params r) 0; DS]
    | _ =>
        let! r := weibull_fit CI optimizer F (D_seq C) in
        Ok [nth 0 (f_params r) 0; nth 1 (f_params r) 0; INR (length zeros) / n]
    end.

  (** The arguments given to fitters_input_checking: 3623-3631, 4128-4136, 4554-4562, 4928-4931, 5249-5257 *)
  Definition special_args (d : dname) (a : fit_args) (raw : list R) : fit_args :=
    mkFit (D_seq (if takes_zeros d then filter (fun t => Rneqb t 0) raw else raw)) (a_right_censored a) No_text (a_optimizer a) (a_CI a) Q_None None None No_text.
  Definition is_zero (t : R) : bool := negb (Rneqb t 0).

  Definition fit_special (d : dname) (a : fit_args) : result special :=
    match a_failures a with
    | D_seq raw =>
        let! k := fitters_input_checking d (special_args d a raw) in
        let F := i_failures k in let C := i_right_censored k in
        let zeros := if takes_zeros d then filter is_zero raw else [] in
        let all := if takes_zeros d then raw else F in
        let! g := special_guess d (i_optimizer k) (i_CI k) all zeros F C in
        let f p := LL (special_model d p) zeros F C in
        let! r := maximise minimize (special_bounds d) f (i_optimizer k) g in
        let p := fst r in
        let diag := option_map (fun m => map (fun i => m i i) (seq 0 (length (special_bounds d)))) (inv f p) in
        let! rows := fit_limits d false (i_CI k) p diag (snd r) in
        let o := distribution (special_model d p) in
        let! xy := plotting_positions_unsorted None (sort (indexed (all_rows all C))) in
        let! c := fitted_CDF o (fst xy) in
        let! ad := anderson_darling c (if takes_zeros d then zeros_at (ZI_of d p) (fst xy) (snd xy) else snd xy) in
        Ok (mkSpecial p rows o (snd r)
              (goodness (Z.of_nat (length all + length C)) (Z.of_nat (k_of (special_model d p) false)) (2 * f p)) ad)
    | _ => Err ValueError
    end.
End Special.
