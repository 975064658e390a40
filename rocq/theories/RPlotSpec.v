(** Specification for the plots of optimal_replacement_time. *)
From Coq Require Import List Arith Reals.
From Verif Require Import Base RepairModel RepairSpec RPlotModel.
Open Scope R_scope.

(** The point is within the axes. *)
Definition sees (p : rplot) (v : R * R) : Prop :=
  fst (p_xlim p) <= fst v <= snd (p_xlim p) /\ fst (p_ylim p) <= snd v <= snd (p_ylim p).
(** The line of the cost per unit time. *)
Definition cost_line (cost_PM cost_CM alpha beta : R) (q : nat) (v : R * R) : Prop :=
  match q with
  | 1%nat => on_grid 1 (4 * alpha) 100000 (fst v) /\ snd v = (cost_PM * Rpower (fst v / alpha) beta + cost_CM) / fst v
  | _ => on_grid 1 (3 * alpha) 10000 (fst v) /\ snd v = renewal_cost cost_PM cost_CM (weibull_reliability alpha beta) (fst v)
  end.
(** The line of the replacement time against the ratio of the costs: at each ratio the time that is returned
    for that ratio. *)
Definition ratio_line (cost_PM alpha beta : R) (q : nat) (upper : R) (v : R * R) : Prop :=
  on_grid 1 upper 200 (fst v) /\ exists cost, optimal_replacement_time cost_PM (fst v * cost_PM) alpha beta q = Ok (snd v, cost).
(** What is assumed of the parameters: an increasing hazard for the policy "as good as old". *)
Definition proper (cost_PM alpha beta : R) (q : nat) : Prop :=
  0 < cost_PM /\ 0 < alpha /\ match q with 1%nat => 1 < beta | _ => 0 < beta end.
