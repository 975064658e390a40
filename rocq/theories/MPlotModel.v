(** Model of the plots of MCF_nonparametric and MCF_parametric: Repairable_systems.py 1019-1063, 1272-1324. Colours and texts
    are left out. *)
From Coq Require Import List Arith Reals Bool.
From Verif Require Import Base RList NonparModel RepairModel MCFModel.
Import ListNotations.
Open Scope R_scope.

(** One of the three step lines, 1020-1045: the two points of each repair after the first point, then the last time.
    The arrays x and y are one list of points here. *)
Fixpoint walk (prev : R) (p : list (R * R)) : list (R * R) :=
  match p with [] => [] | (t, y) :: r => (t, prev) :: (t, y) :: walk y r end.
Definition stairs (times ys : list R) (last_time : R) : list (R * R) :=
  (0, 0) :: walk 0 (combine times ys) ++ [(last_time, last ys 0)].

Record mcf_chart := mkMChart { m_line : list (R * R); m_lower : list (R * R); m_upper : list (R * R); m_xlim : R * R; m_ylim : R * R }.
(** 1019-1063. [last_time]: 879. *)
Definition mcf_plot (data : list (list R)) (CI : R) : result mcf_chart :=
  let '(_, end_times, _) := collect data in
  let last_time := rmax end_times in
  let! r := fst (mcf_nonparametric data CI) in
  Ok (mkMChart (stairs (mcf_time r) (mcf_MCF r) last_time) (stairs (mcf_time r) (mcf_lower r) last_time)
        (stairs (mcf_time r) (mcf_upper r) last_time) (0, last_time) (0, rmax (mcf_upper r) * (105 / 100))).

(** The parametric plot, 1272-1324: the curve with its band (at every point of the curve) and the points. *)
Record pmcf_chart := mkPChart { pc_line : list (R * R); pc_band : list (R * (R * R)); pc_points : list (R * R); pc_xlim : R * R; pc_ylim : R * R }.
Definition pmcf_plot (r : mcf_parametric_result) (CI : R) : pmcf_chart :=
  let x := linspace (1 / 1000) (rmax (pm_times r) * 10) 1000 in
  mkPChart (map (fun t => (t, mcf_line r t)) x) (map (fun t => (t, mcf_band r CI t)) x) (combine (pm_times r) (pm_MCF r))
    (0, rmax (pm_times r) * (12 / 10)) (0, rmax (pm_MCF r) * (14 / 10)).
