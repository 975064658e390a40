(** Specification vocabulary for the estimates and the plot of ROCOF. *)
From Coq Require Import List Arith Reals Permutation Sorted.
From Verif Require Import Base RList RepairModel.
Import ListNotations.
Open Scope R_scope.

(** The ages of the system at its failures: given, or the sums of the times between failures up to each. *)
Definition failure_ages (times_between_failures failure_times : option (list R)) : list R :=
  match times_between_failures, failure_times with
  | Some g, _ => map (fun k => rsum (firstn k g)) (seq 1 (length g))
  | None, Some f => f
  | None, None => []
  end.
(** The end of the observation: the end of the test, or the last failure. *)
Definition observed_until (ages : list R) (test_end : option R) : R :=
  match test_end with Some e => e | None => rmax ages end.
Definition mean_age (ages : list R) : R := rsum ages / INR (length ages).
(** The failures one after the other. *)
Definition in_order (s ages : list R) : Prop := Permutation s ages /\ StronglySorted Rle s.
(** Time since the failure before, for the i-th failure, counted from 0. *)
Definition since_last (s : list R) (i : nat) : R := match i with O => nth 0 s 0 | S j => nth i s 0 - nth j s 0 end.
