(** Model of plotting_positions (reliability/Probability_plotting.py:67-169) and of the
    estimators of reliability/Nonparametric.py (KaplanMeier 27-347, NelsonAalen 350-671,
    RankAdjustment 674-1012).

    Times are reals.  A row is a time with its censoring code ([true] = failure, code 1).
    pandas' sort_values is called with its default kind, which is documented as unstable:
    the model takes the sorted rows as an argument, and the theorems quantify over every
    list of rows which [is_sorting_of] the data.

    [reverse_i] / [remaining_array] (n, n-1, ..., 1) at a row is the number of rows from
    that row on, i.e. the length of the suffix starting there.

    Not modelled: printing. The plots are in NPlotModel. *)
From Coq Require Import List Arith Reals Bool Permutation Sorted.
From Verif Require Import Base Ext Gauss.
Import ListNotations.
Open Scope R_scope.

Notation row := (R * bool)%type (only parsing).

Definition Rltb (x y : R) : bool := if Rlt_dec x y then true else false.

(** Nonparametric.py:139-144, Probability_plotting.py:122-128: all data with codes and
    the index that pandas gives each row. *)
Definition all_rows (failures right_censored : list R) : list row :=
  map (fun t => (t, true)) failures ++ map (fun t => (t, false)) right_censored.

Definition indexed (rows : list row) : list (nat * row) :=
  combine (seq 0 (length rows)) rows.

(** df.sort_values(by="times"), Probability_plotting.py:129. *)
Definition is_sorting_of (data rows : list row) : Prop :=
  Permutation data rows /\ StronglySorted (fun r s => fst r <= fst s) rows.

(** ** plotting_positions *)

(** Probability_plotting.py:130-132: reverse_i of the failure rows. *)
Fixpoint failure_reverse_i (codes : list bool) : list nat :=
  match codes with
  | [] => []
  | c :: rest => if c then S (length rest) :: failure_reverse_i rest else failure_reverse_i rest
  end.

(** Probability_plotting.py:134: np.where(codes == 1)[0][0]; IndexError when empty. *)
Fixpoint leading_cens (codes : list bool) : result nat :=
  match codes with
  | [] => Err IndexError
  | true :: _ => Ok 0%nat
  | false :: rest => let! k := leading_cens rest in Ok (S k)
  end.

(** Probability_plotting.py:140-142 and 148-151: the ranks appended by the loop, starting
    from the rank [prev]. *)
Fixpoint rank_loop (n : nat) (prev : R) (rev_i : list nat) : list R :=
  match rev_i with
  | [] => []
  | r :: rest =>
      let rank_increment := (INR n + 1 - prev) / (1 + INR r) in
      let rank := prev + rank_increment in
      rank :: rank_loop n rank rest
  end.

(** Probability_plotting.py:136-151. *)
Definition adjusted_ranks (codes : list bool) : result (list R) :=
  let n := length codes in
  let rev_i := failure_reverse_i codes in
  let! lead := leading_cens codes in
  if (0 <? lead)%nat then Ok (rank_loop n 0 rev_i)
  else Ok (1 :: rank_loop n 1 (tl rev_i)).

(** Probability_plotting.py:113-118: the default and the range check of a. *)
Definition check_a (a : option R) : result R :=
  match a with
  | None => Ok (3 / 10)
  | Some a => if Rltb a 0 || Rltb 1 a then Err ValueError else Ok a
  end.

(** Probability_plotting.py:67-169 up to the final ordering: the failure rows in sorted
    order with their plotting positions.  Dividing by n + 1 - 2a = 0 (n = 1, a = 1) raises
    ZeroDivisionError. *)
Definition positions (a : R) (codes : list bool) : result (list R) :=
  let n := INR (length codes) in
  let! ranks := adjusted_ranks codes in
  if Req_EM_T (n + 1 - 2 * a) 0 then Err ZeroDivisionError
  else Ok (map (fun i => (i - a) / (n + 1 - 2 * a)) ranks).

Definition failure_times (rows : list row) : list R := map fst (filter snd rows).

(** plotting_positions(..., sort=True), Probability_plotting.py:164-166. *)
Definition plotting_positions_sorted (a : option R) (sorted_rows : list row)
    : result (list R * list R) :=
  let! a := check_a a in
  let! y := positions a (map snd sorted_rows) in
  Ok (failure_times sorted_rows, y).

(** Insertion by index: .sort_values(by="idx"), Probability_plotting.py:160; the indices
    are distinct so every sort gives the same result. *)
Definition idx_leb {A} (p q : nat * A) : bool := (fst p <=? fst q)%nat.

(** plotting_positions(..., sort=False), Probability_plotting.py:154-163. *)
Definition plotting_positions_unsorted (a : option R) (sorted_rows : list (nat * row))
    : result (list R * list R) :=
  let! a := check_a a in
  let! y := positions a (map snd (map snd sorted_rows)) in
  let failure_rows := filter (fun p => snd (snd p)) sorted_rows in
  let idx := map fst failure_rows in
  let x := map (fun p => fst (snd p)) failure_rows in
  let df2 := isort idx_leb (combine idx (combine x y)) in
  Ok (map (fun p => fst (snd p)) df2, map (fun p => snd (snd p)) df2).

(** ** Kaplan-Meier *)

Definition code (c : bool) : R := if c then 1 else 0.

(** ss.norm.ppf(1 - (1 - CI) / 2), Nonparametric.py:159: inf at CI = 1. *)
Definition z_of_CI (CI : R) : ext :=
  if Rlt_dec CI 1 then Fin (norm_ppf (1 - (1 - CI) / 2)) else PInf.

(** KM + delta and KM - delta clipped to [0,1], Nonparametric.py:181-187.  A nan stays. *)
Definition clip_upper (est : R) (delta : ext) : ext :=
  match delta with
  | Fin d => if Rlt_dec 1 (est + d) then Fin 1 else Fin (est + d)
  | PInf => Fin 1
  | NaN => NaN
  end.
Definition clip_lower (est : R) (delta : ext) : ext :=
  match delta with
  | Fin d => if Rlt_dec (est - d) 0 then Fin 0 else Fin (est - d)
  | PInf => Fin 0
  | NaN => NaN
  end.

(** Greenwood's term, Nonparametric.py:172-180 (also 496-506 and 838-848): the new sum and
    half-width after a failure with [risk] items at risk and estimate [est]. *)
Definition greenwood (z : ext) (risk : nat) (est : R) (sumfrac : ext) : ext * ext :=
  let frac := einv (INR risk * (INR risk - 1)) in
  let sumfrac := eadd sumfrac frac in
  let R2 := est * est in
  (sumfrac, if Rlt_dec 0 R2 then emul (esqrt (emul sumfrac (Fin R2))) z else Fin 0).

Record entry := mkEntry {
  e_time : R; e_code : bool; e_est : R; e_lower : ext; e_upper : ext }.

(** The loop Nonparametric.py:162-187.  [prev] is KM[i-2] (1 at the start, for which the
    separate first branch of the code gives the same number). *)
Fixpoint km_loop (z : ext) (rows : list row) (prev : R) (sumfrac delta : ext) : list entry :=
  match rows with
  | [] => []
  | (t, c) :: rest =>
      let remaining := S (length rest) in
      let km := (INR remaining - code c) / INR remaining * prev in
      let '(sumfrac, delta) :=
        if c then greenwood z remaining km sumfrac else (sumfrac, delta) in
      mkEntry t c km (clip_lower km delta) (clip_upper km delta)
        :: km_loop z rest km sumfrac delta
  end.

(** The checks Nonparametric.py:117-137. *)
Definition np_checks (CI : R) (n_failures : nat) : result unit :=
  if Rltb CI 0 || Rltb 1 CI then Err ValueError
  else if (n_failures <? 2)%nat then Err ValueError
  else Ok tt.

Definition kaplan_meier (CI : R) (sorted_rows : list row) : result (list entry) :=
  let! _ := np_checks CI (length (filter snd sorted_rows)) in
  Ok (km_loop (z_of_CI CI) sorted_rows 1 (Fin 0) (Fin 0)).

(** The step arrays, Nonparametric.py:207-245 (and 531-569): x, y, lower and upper
    appended for the entries after [prev]. *)
Definition steps : Type := (list R * list R * list ext * list ext)%type.

Definition step_append (xs ys : list R) (ls us : list ext) (s : steps) : steps :=
  let '(xs', ys', ls', us') := s in (xs ++ xs', ys ++ ys', ls ++ ls', us ++ us').

Fixpoint step_loop (prev : entry) (es : list entry) : steps :=
  match es with
  | [] => ([], [], [], [])
  | e :: rest =>
      let lo := e_lower prev in let up := e_upper prev in
      if Req_EM_T (e_est prev) (e_est e) then
        step_append [e_time e] [e_est e] [lo] [up] (step_loop e rest)
      else
        step_append [e_time e; e_time e] [e_est prev; e_est e] [lo; lo] [up; up]
          (step_loop e rest)
  end.

(** The whole construction, with the start point (0, 1) and the repeated last limits. *)
Definition step_arrays (es : list entry) : steps :=
  match es with
  | [] => ([0], [1], [], [])
  | e :: rest =>
      let one := Fin 1 in
      let '(xs, ys, ls, us) :=
        if e_code e
        then step_append [e_time e; e_time e] [1; e_est e] [one; one] [one; one] (step_loop e rest)
        else step_append [e_time e] [1] [one] [one] (step_loop e rest) in
      (0 :: xs, 1 :: ys, ls ++ [last ls NaN], us ++ [last us NaN])
  end.

Definition st_x (s : steps) : list R := fst (fst (fst s)).
Definition st_SF (s : steps) : list R := snd (fst (fst s)).
Definition st_lower (s : steps) : list ext := snd (fst s).
Definition st_upper (s : steps) : list ext := snd s.

(** ** Nelson-Aalen, Nonparametric.py:478-510 *)
Fixpoint na_loop (z : ext) (rows : list row) (H : R) (sumfrac delta : ext) : list (R * entry) :=
  match rows with
  | [] => []
  | (t, c) :: rest =>
      let remaining := S (length rest) in
      let H := H + code c / INR remaining in
      let na := exp (- H) in
      let '(sumfrac, delta) :=
        if c then greenwood z remaining na sumfrac else (sumfrac, delta) in
      (H, mkEntry t c na (clip_lower na delta) (clip_upper na delta))
        :: na_loop z rest H sumfrac delta
  end.

Definition nelson_aalen (CI : R) (sorted_rows : list row) : result (list (R * entry)) :=
  let! _ := np_checks CI (length (filter snd sorted_rows)) in
  Ok (na_loop (z_of_CI CI) sorted_rows 0 (Fin 0) (Fin 0)).

(** ** Rank adjustment *)

(** Nonparametric.py:826-852.  [ys] are the plotting positions of the failures still to
    come, [cur] is y_extended[failure_counter]. *)
Fixpoint ra_loop (z : ext) (rows : list row) (cur : R) (ys : list R) (sumfrac delta : ext)
    : list entry :=
  match rows with
  | [] => []
  | (t, c) :: rest =>
      let remaining := S (length rest) in
      let '(cur, ys) := if c then (hd 0 ys, tl ys) else (cur, ys) in
      let ra := 1 - cur in
      let '(sumfrac, delta) :=
        if c then greenwood z remaining ra sumfrac else (sumfrac, delta) in
      mkEntry t c ra (clip_lower ra delta) (clip_upper ra delta)
        :: ra_loop z rest cur ys sumfrac delta
  end.

(** Nonparametric.py:805-816: the stepwise CDF. *)
Fixpoint ra_steps (prev : R) (xy : list (R * R)) : list (R * R) :=
  match xy with
  | [] => []
  | (x, y) :: rest => (x, prev) :: (x, y) :: ra_steps y rest
  end.

Definition twice {A} (l : list A) : list A := flat_map (fun v => [v; v]) l.

Record ra_result := mkRA {
  ra_entries : list entry; ra_x : list R; ra_SF : list R;
  ra_lower : list ext; ra_upper : list ext }.

(** Nonparametric.py:803-882, given the plotting positions x, y. *)
Definition ra_build (z : ext) (rows : list row) (x y : list R) : ra_result :=
  let es := ra_loop z rows 0 y (Fin 0) (Fin 0) in
  let xy := (0, 0) :: ra_steps 0 (combine x y) in
  let last_failed := snd (last rows (0, false)) in
  let xy := if last_failed then xy
            else xy ++ [(fst (last rows (0, false)), snd (last xy (0, 0)))] in
  let lows := twice (Fin 1 :: map e_lower (filter e_code es)) in
  let ups := twice (Fin 1 :: map e_upper (filter e_code es)) in
  mkRA es (map fst xy) (map (fun p => 1 - snd p) xy)
    (if last_failed then removelast lows else lows)
    (if last_failed then removelast ups else ups).

(** RankAdjustment; the rows sorted here and those sorted inside plotting_positions come
    from the same call on the same data, so they are the same list. *)
Definition rank_adjustment (CI : R) (a : option R) (sorted_rows : list row) : result ra_result :=
  let! _ := np_checks CI (length (filter snd sorted_rows)) in
  let! xy := plotting_positions_sorted a sorted_rows in
  Ok (ra_build (z_of_CI CI) sorted_rows (fst xy) (snd xy)).
