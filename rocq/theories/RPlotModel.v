(** Model of the two plots of optimal_replacement_time: Repairable_systems.py 348-478. The texts on the plots are left out;
    so are the axes that can be passed instead of True. *)
From Coq Require Import List Arith Reals Bool.
From Verif Require Import Base NonparModel RepairModel RoundModel RandModel.
Import ListNotations.
Open Scope R_scope.

(** A line, a marked point and the axes. *)
Record rplot := mkRPlot { p_line : list (R * R); p_mark : R * R; p_xlim : R * R; p_ylim : R * R }.

(** The cost per unit time against the replacement time: 348-381 for the line (100000 or 10000 points), 410-423. *)
Definition time_plot (cost_PM cost_CM alpha beta : R) (q : nat) : result rplot :=
  let! best := optimal_replacement_time cost_PM cost_CM alpha beta q in
  let alpha_multiple := match q with 1%nat => 4 | _ => 3 end in
  let line :=
    match q with
    | 1%nat => map (fun t => (t, cput_old cost_PM cost_CM alpha beta t)) (linspace 1 (alpha * alpha_multiple) (N.to_nat 100000))
    | _ => map (fun t => (t, cput_new cost_PM cost_CM alpha beta t)) (linspace 1 (alpha * alpha_multiple) (N.to_nat 10000))
    end in
  Ok (mkRPlot line best (0, alpha * alpha_multiple) (0, snd best * 2)).

(** The replacement time against the ratio of the costs: 433-454. t, sf and integral are those of the time plot. *)
Definition calc_ORT (cost_PM alpha beta : R) (q : nat) (x : R) : result R :=
  match q with
  | 1%nat => Ok (ort_old cost_PM x alpha beta)
  | _ =>
      let t := linspace 1 (alpha * 3) (N.to_nat 10000) in
      let! idx := argmin (map (cput_new cost_PM x alpha beta) t) in
      Ok (nth idx t 0)
  end.
Definition ratio_plot (cost_PM cost_CM alpha beta : R) (q : nat) : result rplot :=
  let! best := optimal_replacement_time cost_PM cost_CM alpha beta q in
  if Req_EM_T cost_PM 0 then Err ZeroDivisionError
  else
    let xupper := IZR (rne (cost_CM / cost_PM)) * 2 in
    let CC_CP := linspace 1 xupper 200 in
    let! ORT_array := mapM (fun r => calc_ORT cost_PM alpha beta q (r * cost_PM)) CC_CP in
    Ok (mkRPlot (combine CC_CP ORT_array) (cost_CM / cost_PM, fst best) (1, xupper) (0, fst best * 2)).
