(** Specification vocabulary for repairable systems. *)
From Coquelicot Require Import Coquelicot.
From Coq Require Import List Arith Reals Permutation Sorted.
From Verif Require Import Base NonparModel RList RepairModel.
Import ListNotations.
Open Scope R_scope.

(** Log-likelihood of failure times under the power law process with intensity
    lam * bet * t^(bet-1), observed from 0 to T. *)
Definition plp_loglik (lam bet : R) (times : list R) (T : R) : R :=
  rsum (map (fun t => ln (lam * bet * Rpower t (bet - 1))) times) - lam * Rpower T bet.

(** Number of systems whose last recorded time (the end of observation) is at or after t. *)
Definition systems_observed (data : list (list R)) (t : R) : nat :=
  length (filter (fun e => Rleb t e) (map rmax data)).

(** Gaps between the start, the failures and the end of the test. *)
Definition gaps (ti : list R) (test_end : option R) : list R :=
  match test_end with None => ti | Some e => ti ++ [e - rsum ti] end.

(** Event times after the given gaps, the last one (the end of the test) left out. *)
Definition arrivals (g : list R) : list R :=
  map (fun k => rsum (firstn k g)) (seq 1 (length g - 1)).

(** The Laplace trend statistic for arrival times in a test of length T. *)
Definition laplace_statistic (times : list R) (T : R) : R :=
  let n := INR (length times) in
  (rsum times / n - T / 2) / (T * sqrt (1 / (12 * n))).

(** Expected number of failures by time t under the power law process. *)
Definition plp_mean (lam bet t : R) : R := lam * Rpower t bet.

(** Cost per unit time of replacing at age t, with minimal repair of each failure before
    that: the expected number of repairs is (t/alpha)^beta. *)
Definition minimal_repair_cost (cost_PM cost_CM alpha beta t : R) : R :=
  (cost_PM + cost_CM * Rpower (t / alpha) beta) / t.

Definition mirror (t : trend) : trend :=
  match t with Improving => Worsening | Constant => Constant | Worsening => Improving end.

(** Cost per unit time of replacing at age t or at failure, whichever comes first, for a
    life with reliability S: expected cycle cost over expected cycle length. *)
Definition renewal_cost (cost_PM cost_CM : R) (S : R -> R) (t : R) : R :=
  (cost_PM * S t + cost_CM * (1 - S t)) / RInt S 0 t.

(** Reliability of a Weibull life. *)
Definition weibull_reliability (alpha beta x : R) : R :=
  if Req_EM_T x 0 then 1 else exp (- Rpower (x / alpha) beta).

(** n equally spaced points from a to b, both included. *)
Definition on_grid (a b : R) (n : N) (t : R) : Prop :=
  exists i : nat, (i < N.to_nat n)%nat /\ t = a + INR i * ((b - a) / (IZR (Z.of_N n) - 1)).
