(** Model of the plot of ROCOF: Repairable_systems.py 611-660, 711-723. Colours and texts are left out. *)
From Coq Require Import List Arith Reals Bool.
From Verif Require Import Base RList RepairModel.
Import ListNotations.
Open Scope R_scope.

(** The points of plt.scatter and the line of plt.plot. None: the estimates are infinite and matplotlib has
    no finite point to draw. *)
Record rocof_chart := mkRChart { rc_points : list (R * R); rc_line : option (list (R * R)) }.
(** x = np.arange(1, len(ti) + 1) *)
Definition numbers (ti : list R) : list R := map INR (seq 1 (length ti)).
(** 611-660: x_to_plot and MTBF; 711-713. *)
Definition rocof_plot (times_between_failures failure_times : option (list R)) (CI : R) (test_end : option R) : result rocof_chart :=
  let! ti := rocof_input times_between_failures failure_times in
  let! r := rocof ti CI test_end in
  let n := match test_end with None => (length ti - 1)%nat | Some _ => length ti end in
  let tc := cumsum 0 (firstn n ti) in
  let x := numbers ti in
  let line :=
    match r_trend r with
    | Constant => match r_ROCOF r with Some v => Some (map (fun i => (i, 1 / v)) x) | None => None end
    | _ =>
        match r_Beta r, r_Lambda r with
        | Some B, Some L =>
            let MTBF := map (fun t => 1 / (L * B * Rpower t (B - 1))) tc in
            Some (combine (match test_end with Some _ => x | None => removelast x end) MTBF)
        | _, _ => None
        end
    end in
  Ok (mkRChart (combine x ti) line).
