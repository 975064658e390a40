(** Model of reliability/Repairable_systems.py: reliability_growth (29-274),
    optimal_replacement_time (277-478), ROCOF (481-723), MCF_nonparametric (726-1063).

    Floats are reals; [x ** y] is [Rpower x y], used only for x > 0.  Not modelled:
    printing and plotting, type checks, and the curve_fit of MCF_parametric. *)
From Coquelicot Require Import Coquelicot.
From Coq Require Import List Arith Reals Bool Permutation Sorted Lra.
From Verif Require Import Base Gauss NonparModel RList.
Import ListNotations.
Open Scope R_scope.

(** ** reliability_growth *)

(** max of a non-empty list. *)
Definition rmax (l : list R) : R := match l with [] => 0 | x :: r => fold_right Rmax x r end.

Record crow := mkCrow {
  Beta : R; Lambda : R; growth_rate : R; DMTBF_I : R; DFI_I : R; DMTBF_C : R; DFI_C : R }.

(** Repairable_systems.py:100-108 (checks), 126-138 (estimates).  When all times are
    equal the denominator of Beta is 0 and numpy returns inf: modelled as a separate
    outcome [None]. *)
Definition crow_amsaa (times : list R) : result (option crow) :=
  if existsb (fun t => negb (Rltb 0 t)) times then Err ValueError
  else match times with
  | [] => Err ValueError
  | _ =>
    let n := INR (length times) in
    let max_time := rmax times in
    let d := n * ln max_time - rsum (map ln times) in
    if Req_EM_T d 0 then Ok None
    else
      let Beta := n / d in
      let Lambda := n / Rpower max_time Beta in
      let DMTBF_I := 1 / (Lambda * Beta * Rpower max_time (Beta - 1)) in
      let DMTBF_C := 1 / Lambda * Rpower max_time (1 - Beta) in
      Ok (Some (mkCrow Beta Lambda (1 - Beta) DMTBF_I (1 / DMTBF_I) DMTBF_C (1 / DMTBF_C)))
  end.

Record duane := mkDuane {
  Alpha : R; A : R; d_DMTBF_C : R; d_DFI_C : R; d_DFI_I : R; d_DMTBF_I : R }.

(** Repairable_systems.py:139-150.  [z0] and [z1] are the slope and intercept returned by
    np.polyfit(log times, log MTBF_c, 1), taken as arguments. *)
Definition duane_model (max_time z0 z1 : R) : duane :=
  let b := exp z1 in
  let DMTBF_C := b * Rpower max_time z0 in
  let DFI_C := 1 / DMTBF_C in
  let DFI_I := (1 - z0) * DFI_C in
  mkDuane z0 (1 / b) DMTBF_C DFI_C DFI_I (1 / DFI_I).

(** Repairable_systems.py:152-157: the time to reach the target. *)
Definition crow_time_to_target (c : crow) (target : R) : R :=
  Rpower (1 / (Lambda c * target)) (1 / (Beta c - 1)).
Definition duane_time_to_target (d : duane) (target : R) : R :=
  Rpower (target / (1 / A d)) (1 / Alpha d).

(** ** optimal_replacement_time *)

(** Repairable_systems.py:346-357: the cost per unit time for q = 1, and the reported time
    and cost. *)
Definition cput_old (cost_PM cost_CM alpha beta t : R) : R :=
  (cost_PM * Rpower (t / alpha) beta + cost_CM) / t.

Definition ort_old (cost_PM cost_CM alpha beta : R) : R :=
  alpha * Rpower (cost_CM / (cost_PM * (beta - 1))) (1 / beta).

(** np.linspace(a, b, n) for n >= 2. *)
Definition linspace (a b : R) (n : nat) : list R :=
  map (fun i => a + INR i * ((b - a) / INR (n - 1))) (seq 0 n).

(** np.argmin of a non-empty list: the first index with the least value. *)
Fixpoint argmin_from (best : R) (besti i : nat) (l : list R) : nat :=
  match l with
  | [] => besti
  | x :: r => if Rlt_dec x best then argmin_from x i (S i) r else argmin_from best besti (S i) r
  end.
Definition argmin (l : list R) : result nat :=
  match l with [] => Err ValueError | x :: r => Ok (argmin_from x 0 1 r) end.

(** Repairable_systems.py:363-378: the q = 0 branch.  integrate.quad is the integral. *)
Definition weibull_sf (alpha beta x : R) : R :=
  if Req_EM_T x 0 then 1 else exp (- Rpower (x / alpha) beta).
Definition cput_new (cost_PM cost_CM alpha beta t : R) : R :=
  let sf := weibull_sf alpha beta t in
  (cost_PM * sf + cost_CM * (1 - sf)) / RInt (weibull_sf alpha beta) 0 t.

(** Repairable_systems.py:337-387.  The result is (ORT, min_cost). *)
Definition optimal_replacement_time (cost_PM cost_CM alpha beta : R) (q : nat) : result (R * R) :=
  if Rltb cost_CM cost_PM then Err ValueError
  else match q with
  | 1%nat =>
      let ORT := ort_old cost_PM cost_CM alpha beta in
      Ok (ORT, cput_old cost_PM cost_CM alpha beta ORT)
  | 0%nat =>
      let t := linspace 1 (alpha * 3) (N.to_nat 10000) in
      let CPUT := map (cput_new cost_PM cost_CM alpha beta) t in
      let! idx := argmin CPUT in
      Ok (nth idx t 0, nth idx CPUT 0)
  | _ => Err ValueError
  end.

(** ** ROCOF *)

(** Repairable_systems.py:575-590: interarrival times from failure times. *)
Fixpoint diffs (prev : R) (l : list R) : list R :=
  match l with [] => [] | x :: r => (x - prev) :: diffs x r end.

Definition Rleb (x y : R) : bool := if Rle_dec x y then true else false.

(** Repairable_systems.py:562-590: exactly one of the two inputs; with neither, [ti] is an
    unbound local. *)
Definition rocof_input (times_between_failures failure_times : option (list R)) : result (list R) :=
  match times_between_failures, failure_times with
  | Some _, Some _ => Err ValueError
  | Some ti, None => if existsb (fun t => Rleb t 0) ti then Err ValueError else Ok ti
  | None, Some ft =>
      if existsb (fun t => Rleb t 0) ft then Err ValueError else Ok (diffs 0 (isort Rleb ft))
  | None, None => Err NameError
  end.

Fixpoint cumsum (acc : R) (l : list R) : list R :=
  match l with [] => [] | x :: r => (acc + x) :: cumsum (acc + x) r end.

Inductive trend := Improving | Constant | Worsening.

Record rocof_result := mkRocof {
  r_U : R; r_z_crit : R; r_trend : trend;
  r_Beta : option R; r_Lambda : option R; r_ROCOF : option R }.

(** Repairable_systems.py:595-660.  [n = 0] makes sum_tc / n raise ZeroDivisionError.
    The power law estimates are absent ([None]) when their denominator is 0, where numpy
    gives inf. *)
Definition rocof (ti : list R) (CI : R) (test_end : option R) : result rocof_result :=
  if Rleb CI 0 || Rleb 1 CI then Err ValueError
  else
    let tn := match test_end with None => rsum ti | Some e => e end in
    let n := match test_end with None => (length ti - 1)%nat | Some _ => length ti end in
    if match test_end with None => false | Some e => Rltb e (rsum ti) end then Err ValueError
    else if (n =? 0)%nat then Err ZeroDivisionError
    else
      let tc := cumsum 0 (firstn n ti) in
      let sum_tc := rsum tc in
      let z_crit := norm_ppf ((1 - CI) / 2) in
      let U := (sum_tc / INR n - tn / 2) / (tn * sqrt (1 / (12 * INR n))) in
      let len := INR (length ti) in
      let s := rsum (map (fun t => ln (tn / t)) tc) in
      let B := if Req_EM_T s 0 then None else Some (len / s) in
      let L := match B with None => None | Some b => Some (len / Rpower tn b) end in
      if Rlt_dec U z_crit then Ok (mkRocof U z_crit Improving B L None)
      else if Rlt_dec (- z_crit) U then Ok (mkRocof U z_crit Worsening B L None)
      else Ok (mkRocof U z_crit Constant None None (Some ((INR n + 1) / rsum ti))).

(** The whole ROCOF call, Repairable_systems.py:562-660. *)
Definition ROCOF (times_between_failures failure_times : option (list R)) (CI : R)
    (test_end : option R) : result rocof_result :=
  let! ti := rocof_input times_between_failures failure_times in
  rocof ti CI test_end.

(** ** MCF_nonparametric *)

(** Repairable_systems.py:863-871: each system is sorted IN PLACE; its last time is its end
    time, the others are repairs.  Returns repairs, end times and the caller's data after
    the call. *)
Fixpoint split_last (l : list R) : list R * list R :=
  match l with
  | [] => ([], [])
  | [x] => ([], [x])
  | x :: r => let (rep, e) := split_last r in (x :: rep, e)
  end.

Fixpoint collect (data : list (list R)) : list R * list R * list (list R) :=
  match data with
  | [] => ([], [], [])
  | system :: rest =>
      let system := isort Rleb system in
      let (rep, e) := split_last system in
      let '(reps, ends, data') := collect rest in
      (rep ++ reps, e ++ ends, system :: data')
  end.

(** Sort by time, then state descending: a repair (F, [true]) before an end (C, [false]) at
    the same time; Repairable_systems.py:891-899. *)
Definition event_leb (p q : R * bool) : bool :=
  if Rlt_dec (fst p) (fst q) then true
  else if Rlt_dec (fst q) (fst p) then false
  else snd p || negb (snd q).

Definition events (repair_times end_times : list R) : list (R * bool) :=
  isort event_leb (map (fun t => (t, true)) repair_times ++ map (fun t => (t, false)) end_times).

(** (r_inv ** 2) * ((1 - r_inv) ** 2 + (r - 1) * (0 - r_inv) ** 2) *)
Definition var_term (r : nat) : R :=
  let r_inv := 1 / INR r in
  r_inv ^ 2 * ((1 - r_inv) ^ 2 + (INR r - 1) * (0 - r_inv) ^ 2).

(** The loop Repairable_systems.py:909-971, after event number i with r systems left and
    C_seq consecutive ends seen.  [arr] holds MCF_array and Var_array so far: [None] is "".
    A negative list index (which Python would wrap round) is an IndexError here; it is
    proved never to occur. *)
Definition mcf_entry := option (R * R).

Fixpoint mcf_loop (evs : list (R * bool)) (i : nat) (r : nat) (C_seq : nat)
    (arr : list mcf_entry) : result (list mcf_entry) :=
  match evs with
  | [] => Ok arr
  | (t, true) :: rest =>
      if (r =? 0)%nat then Err ZeroDivisionError
      else if (i =? 0)%nat then mcf_loop rest 1 r 0 (arr ++ [Some (1 / INR r, var_term r)])
      else if (i <? C_seq + 1)%nat then Err IndexError
      else match nth_error arr (i - C_seq - 1) with
      | None => Err IndexError
      | Some None => mcf_loop rest (S i) r 0 (arr ++ [Some (1 / INR r, var_term r)])
      | Some (Some (m, v)) =>
          mcf_loop rest (S i) r 0 (arr ++ [Some (1 / INR r + m, var_term r + v)])
      end
  | (t, false) :: rest =>
      (* the first event does not count in C_seq: its time is always in end_times (929) *)
      mcf_loop rest (S i) (r - 1) (if (i =? 0)%nat then C_seq else S C_seq) (arr ++ [None])
  end.

Record mcf_result := mkMCF {
  mcf_time : list R; mcf_MCF : list R; mcf_var : list R; mcf_lower : list R; mcf_upper : list R }.

(** Dropping the rows of the ends, Repairable_systems.py:985-992. *)
Fixpoint drop_ends (evs : list (R * bool)) (arr : list mcf_entry) : list (R * (R * R)) :=
  match evs, arr with
  | (t, true) :: evs', Some mv :: arr' => (t, mv) :: drop_ends evs' arr'
  | _ :: evs', _ :: arr' => drop_ends evs' arr'
  | _, _ => []
  end.

(** MCF_nonparametric, Repairable_systems.py:860-1001, for 0 < CI < 1 (at 0 and 1 the Z
    value is infinite).  The second component is the caller's data afterwards. *)
Definition mcf_nonparametric (data : list (list R)) (CI : R) : result mcf_result * list (list R) :=
  let '(repair_times, end_times, data') := collect data in
  (if Rltb CI 0 || Rltb 1 CI then Err ValueError
   else match end_times, repair_times with
   | [], _ | _, [] => Err ValueError
   | _, _ =>
     if Rltb (rmax end_times) (rmax repair_times) then Err ValueError
     else
       let Z := - norm_ppf (1 - CI) in
       let evs := events repair_times end_times in
       let! arr := mcf_loop evs 0 (length end_times) 0 [] in
       let rows := drop_ends evs arr in
       Ok (mkMCF (map fst rows) (map (fun p => fst (snd p)) rows) (map (fun p => snd (snd p)) rows)
             (map (fun p => fst (snd p) / exp (Z * sqrt (snd (snd p)) / fst (snd p))) rows)
             (map (fun p => fst (snd p) * exp (Z * sqrt (snd (snd p)) / fst (snd p))) rows))
   end, data').
