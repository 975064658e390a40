(** Model of the plots of Fit_Everything, Fitters.py:1360-1753: __probplot_layout
    (1360-1431), the bars and limits of __histogram_plot (1433-1628) and __P_P_plot
    (1630-1753).

    Floats are reals.  Not modelled: the curves of the fitted distributions drawn over the
    bars (the PDF and CDF methods are modelled elsewhere), legends, colours, figure sizes. *)
From Coquelicot Require Import Coquelicot.
From Coq Require Import List Arith ZArith Reals Bool Lra Lia.
From Verif Require Import Base RealFacts Gauss RList NonparModel RepairModel TestingModel CIModel PlotModel.
Import ListNotations.
Open Scope R_scope.

(** What can stop a plot: int(inf) raises OverflowError, which [pyerr] lacks. *)
Inductive plot_error := Overflow_error | Other_error (e : pyerr).
Definition drawn (A : Type) : Type := (A + plot_error)%type.

(** np.percentile(X, 100 q) with its default linear interpolation. *)
Definition percentile (q : R) (X : list R) : R :=
  let s := isort Rleb X in
  let h := q * INR (length X - 1) in
  let i := Z.to_nat (rfloor h) in
  nth i s 0 + (h - INR i) * (nth (S i) s (nth i s 0) - nth i s 0).

(** iqr, Fitters.py:1445. *)
Definition iqr (X : list R) : R := percentile (3 / 4) X - percentile (1 / 4) X.

(** bin_width and num_bins, Fitters.py:1446-1448.  X is a numpy array: dividing by zero
    gives inf (int(inf) is an OverflowError) or, for 0/0, nan (int(nan) is a ValueError). *)
Definition num_bins (X : list R) : drawn nat :=
  let bin_width := 2 * iqr X * Rpower (INR (length X)) (- (1 / 3)) in
  let span := rmax X - rmin X in
  if Req_EM_T bin_width 0 then
    if Req_EM_T span 0 then inr (Other_error ValueError) else inr Overflow_error
  else inl (Z.to_nat (rceil (span / bin_width))).

(** One bar of plt.bar with align="center". *)
Record bar := mkBar { b_centre : R; b_width : R; b_height : R }.
Definition bars (centre width height : list R) : list bar :=
  map (fun p => mkBar (fst (fst p)) (snd (fst p)) (snd p)) (combine (combine centre width) height).

(** center, Fitters.py:1453. *)
Fixpoint centres (bins : list R) : list R :=
  match bins with x :: ((y :: _) as tail) => ((x + y) / 2) :: centres tail | _ => [] end.

(** np.histogram(..., density=True), Fitters.py:1450: counts / widths / total. *)
Definition density (bins X : list R) : list R :=
  let counts := histogram bins X in
  map (fun p => INR (fst p) / snd p / INR (list_sum counts)) (combine counts (np_diff bins)).

Record hist_plot := mkHist {
  h_pdf : list bar; h_cdf : list bar;
  h_xlim : R * R; h_pdf_ylim : R * R; h_cdf_ylim : R * R }.

(** __histogram_plot, Fitters.py:1433-1628.  [rows] is the sorted data given to
    plotting_positions (1561); n_cens is the number of right censored items, for _frac_fail
    (263).  np.histogram refuses zero bins with a ValueError. *)
Definition histogram_plot (X : list R) (n_cens : nat) (rows : list (R * bool)) : drawn hist_plot :=
  match num_bins X with
  | inr e => inr e
  | inl O => inr (Other_error ValueError)
  | inl k =>
    let frac_fail := INR (length X) / INR (length X + n_cens) in
    let bins := linspace (rmin X) (rmax X) (S k) in
    let hist := density bins X in
    let hist_cumulative := map (fun c => c / rsum hist) (cumsum 0 hist) in
    let width := np_diff bins in
    let center := centres bins in
    let scaled := map (fun h => h * frac_fail) hist in
    match plotting_positions_sorted None rows with
    | Err e => inr (Other_error e)
    | Ok (_, ecdf_y) =>
      inl (mkHist (bars center width scaled)
                  (bars center width (map (fun c => c * rmax ecdf_y) hist_cumulative))
                  (0, rmax X * (12 / 10)) (0, rmax scaled * (12 / 10)) (0, rmax ecdf_y * (12 / 10)))
    end
  end.

Record pp_plot := mkPP { pp_points : list (R * R); pp_lim : R * R }.

(** One subplot of __P_P_plot, Fitters.py:1635-1751: [cdf] is the fitted CDF, applied to
    d = sorted(all_data) (267), [rows] the sorted data given to KaplanMeier, whose default
    CI is 0.95. *)
Definition P_P_plot (cdf : R -> R) (failures right_censored : list R) (rows : list (R * bool)) (ds : dfactor) : result pp_plot :=
  let! es := kaplan_meier (95 / 100) rows in
  let xx := map (fun e => 1 - e_est e) es in
  let yy := map cdf (isort Rleb (failures ++ right_censored)) in
  let plotlim := if Rltb (rmax xx) (rmax yy) then rmax yy else rmax xx in
  let! s := xy_downsample xx yy ds 1000 in
  Ok (mkPP (combine (fst s) (snd s)) (- plotlim * (5 / 100), plotlim * (105 / 100))).

(** __probplot_layout, Fitters.py:1360-1431: (cols, rows); for any other number of items
    the names are unbound. *)
Definition probplot_layout (items : nat) : result (nat * nat) :=
  if (items =? 16)%nat then Ok (6, 3)%nat
  else if existsb (Nat.eqb items) [13; 14; 15]%nat then Ok (5, 3)%nat
  else if existsb (Nat.eqb items) [10; 11; 12]%nat then Ok (4, 3)%nat
  else if existsb (Nat.eqb items) [7; 8; 9]%nat then Ok (3, 3)%nat
  else if existsb (Nat.eqb items) [5; 6]%nat then Ok (3, 2)%nat
  else if (items =? 4)%nat then Ok (2, 2)%nat
  else if (items =? 3)%nat then Ok (3, 1)%nat
  else if (items =? 2)%nat then Ok (2, 1)%nat
  else if (items =? 1)%nat then Ok (1, 1)%nat
  else Err NameError.
