(** Model of /repo/reliability/PoF.py (physics of failure).
    Floats are reals; a division by zero is [ZeroDivisionError] as for Python floats;
    [x ** y] for a negative base is the integer power when y is an integer, and
    otherwise [None] (nan for numpy values, a complex number for Python floats). *)
From Coq Require Import List Arith Reals Lra Lia Bool.
From Verif Require Import Base Ext RList Linear.
Import ListNotations.
Open Scope R_scope.

(** np.log10(x) for x > 0, and 10 ** x. *)
Definition log10 (x : R) : R := ln x / ln 10.
Definition pow10 (x : R) : R := exp (x * ln 10).

Definition pdiv (x y : R) : result R := if Req_EM_T y 0 then Err ZeroDivisionError else Ok (x / y).

(** x ** y for real y. *)
Definition rpow (x y : R) : option R :=
  if Rlt_dec 0 x then Some (Rpower x y)
  else if Req_EM_T x 0 then (if Rlt_dec 0 y then Some 0 else None)
  else if Req_EM_T y (IZR (Int_part y)) then Some (powerRZ x (Int_part y)) else None.

(** np.polyfit(x, y, deg=1): slope and intercept of the least squares line; the closed
    form of the unique solution, which exists when the x are not all equal. Otherwise
    numpy returns a rank-deficient answer with a warning: [None] here. *)
Definition polyfit1 (xs ys : list R) : option (R * R) :=
  let pts := combine xs ys in
  if Req_EM_T (Sxx pts) 0 then None else Some (lsq_slope pts, lsq_intercept pts).

(** ** acceleration_factor: PoF.py 2370-2417 *)

(** 8.617333262145 * 10 ** -5: PoF.py 2383, 2392, 2403 *)
Definition boltzmann : R := 8617333262145 / 10 ^ 17.

Record af_obj := { af_AF : R; af_T_use : R; af_T_acc : R; af_Ea : R }.

(** The object's attributes after __init__: [None] when none of them has been set.
    PoF.py 2370-2417. np.log(AF) is taken as the real logarithm, meant for AF > 0. The
    quotient by (1/Tu - 1/Ta), a numpy division in the code (inf or nan when it is
    zero), is reported as ZeroDivisionError. *)
Definition acceleration_factor (AF T_use T_acc Ea : option R) (print_results : bool) : result (option af_obj) :=
  match T_use with
  | None => Err ValueError
  | Some tu =>
    match AF, T_acc, Ea with
    | None, Some ta, Some ea =>
        let a := ea / boltzmann in
        let! x := pdiv a (tu + 273.15) in
        let! y := pdiv a (ta + 273.15) in
        Ok (Some {| af_AF := exp (x - y); af_T_use := tu; af_T_acc := ta; af_Ea := ea |})
    | Some af, Some ta, None =>
        let! x := pdiv 1 (tu + 273.15) in
        let! y := pdiv 1 (ta + 273.15) in
        let! ea := pdiv (ln af * boltzmann) (x - y) in
        Ok (Some {| af_AF := af; af_T_use := tu; af_T_acc := ta; af_Ea := ea |})
    | Some af, None, Some ea =>
        let! x := pdiv 1 (tu + 273.15) in
        let! y := pdiv (ln af * boltzmann) ea in
        let! z := pdiv 1 (x - y) in
        Ok (Some {| af_AF := af; af_T_use := tu; af_T_acc := z - 273.15; af_Ea := ea |})
    | Some _, Some _, Some _ =>
        (* no branch runs, no attribute is set; printing reads self.AF: 2412-2417 *)
        if print_results then Err AttributeError else Ok None
    | _, _, _ => Err ValueError
    end
  end.

(** ** creep_failure_time: PoF.py 2319-2327 *)
Definition creep_failure_time (temp_low temp_high time_low C : R) : result R :=
  let LMP := (temp_low + 459.67) * (C + log10 time_low) in
  let! e := pdiv LMP (temp_high + 459.67) in
  Ok (pow10 (e - C)).

(** ** palmgren_miner_linear_damage: PoF.py 1425-1447. The printed numbers before
    rounding: life consumed per load cycle, service life, damage fractions. *)
Fixpoint life_fracs (time_at_stress rated_life : list R) : result (list R) :=
  match time_at_stress, rated_life with
  | [], _ => Ok []
  | _ :: _, [] => Err IndexError
  | x :: xs, r :: rs =>
      let! q := pdiv x r in
      let! t := life_fracs xs rs in Ok (q :: t)
  end.

Record pm_out := { pm_consumed : R; pm_service_life : R; pm_damage : list R }.

Definition palmgren_miner (rated_life time_at_stress stress : list R) : result pm_out :=
  if negb (Nat.eqb (length rated_life) (length time_at_stress)) || negb (Nat.eqb (length rated_life) (length stress))
  then Err ValueError
  else
    let! life_frac := life_fracs time_at_stress rated_life in
    let consumed := rsum life_frac in
    let! service := pdiv 1 consumed in
    Ok {| pm_consumed := consumed; pm_service_life := service; pm_damage := map (Rmult service) life_frac |}.

(** ** fracture_mechanics_crack_growth *)

Inductive crack := Edge | Center.

(** PoF.py 1901-1904 *)
Definition f_g_fixed (ct : crack) : R := match ct with Edge => 1.12 | Center => 1 end.

Record cg_out := {
  cg_Nf_1 : R; cg_Nf_2 : R; cg_Nf_tot : R; cg_final : R; cg_transition : R;
  (* the quantities used on the way, in metres and MPa *)
  cg_S_max : R; cg_a_i : R; cg_a_f : R; cg_a_crit : R
}.

(** Simplified method: PoF.py 1881-1944. [D] = None is notch depth 0. The powers of
    lengths, loads and C are taken of positive numbers; [Rpower]. A zero net section
    (W = 2d) or C = 0 divides by zero. *)
Definition crack_growth_simplified (Kc C m P W t Kt a_initial : R) (D a_final : option R) (ct : crack) : result cg_out :=
  if Req_EM_T m 2 then Err ValueError
  else
    let d := match D with None => 0 | Some d => d end in
    if Rlt_dec (W - 2 * d) 0 then Err ValueError
    else
      let! q := pdiv P (t * (W - 2 * d)) in
      let S_max := q * 10 ^ 6 in
      let fg := f_g_fixed ct in
      let m_exp := - 0.5 * m + 1 in
      let! k := pdiv Kc (S_max * fg) in
      let a_crit := 1 / PI * k ^ 2 + d / 1000 in
      let a_f := match a_final with
                 | None => a_crit
                 | Some af => if Rlt_dec af (a_crit * 1000 - d) then (af + d) / 1000 else a_crit
                 end in
      let! l := pdiv d ((1.12 * Kt / fg) ^ 2 - 1) in
      let lt := l / 1000 in
      let denom := m_exp * C * Rpower S_max m * Rpower PI (0.5 * m) * Rpower fg m in
      let! Nf1_ai := (if Rlt_dec (a_initial / 1000) lt
                      then let! n1 := pdiv (Rpower lt m_exp - Rpower (a_initial / 1000) m_exp) denom in
                           Ok (n1, lt + d / 1000)
                      else Ok (0, a_initial / 1000)) in
      let! n2 := pdiv (Rpower a_f m_exp - Rpower (snd Nf1_ai) m_exp) denom in
      Ok {| cg_Nf_1 := fst Nf1_ai; cg_Nf_2 := n2; cg_Nf_tot := fst Nf1_ai + n2;
            cg_final := a_f * 1000 - d; cg_transition := lt * 1000;
            cg_S_max := S_max; cg_a_i := snd Nf1_ai; cg_a_f := a_f; cg_a_crit := a_crit |}.

(** The constructor's defaults Kt=1.0, a_initial=1.0, D=None, a_final=None,
    crack_type="edge": PoF.py 1868-1881 *)
Definition crack_growth_defaults (Kc C m P W t : R) : result cg_out :=
  crack_growth_simplified Kc C m P W t 1 1 None None Edge.

(** Geometry factor at crack length a: PoF.py 1992-2002, 2017-2030, 2033-2043. For a
    centre crack numpy's square root of a negative number is nan: [None]. (cos = 0, where
    numpy gives inf, is put with nan; floats never hit it.) *)
Definition f_g_at (ct : crack) (W a : R) : option R :=
  match ct with
  | Center => if Rlt_dec 0 (cos (PI * a / W)) then Some (sqrt (1 / cos (PI * a / W))) else None
  | Edge => Some (1.12 - 0.231 * (a / W) + 10.55 * (a / W) ^ 2 - 21.72 * (a / W) ^ 3 + 30.39 * (a / W) ^ 4)
  end.

(** State of the iterative method: crack length and effective length ([None]: nan),
    cycles, last computed critical length (metres), stage 1 cycles, the length appended
    to a_array by the previous pass. *)
Record it_state := { it_a : option R; it_eff : option R; it_N : nat; it_crit : option R; it_stage1 : nat; it_prev : option R }.

(** x < y, false when either is nan. *)
Definition nlt (x y : option R) : bool :=
  match x, y with Some a, Some b => if Rlt_dec a b then true else false | _, _ => false end.

Definition nan_state (s : it_state) : it_state :=
  {| it_a := None; it_eff := None; it_N := S (it_N s); it_crit := None; it_stage1 := it_stage1 s; it_prev := None |}.

(** One pass of the while loop, before the stopping tests: PoF.py 2011-2054. In the first
    pass (N = 1) a_array[N - 2] is a_array[-1], the length just appended. A power of a
    negative number is complex for an edge crack (Python floats; the next comparison
    raises TypeError) and nan for a centre crack (numpy floats). *)
Definition it_step (Kc C m P W t d : R) (lt2 : option R) (ct : crack) (s : it_state) : result it_state :=
  match it_a s, it_eff s with
  | Some a, Some eff =>
    let area := t * (W - 2 * d - a) in
    let! q := pdiv P area in
    let S := q * 10 ^ 6 in
    match f_g_at ct W a with
    | None => Ok (nan_state s)
    | Some f_g =>
      let delta_K := if nlt (Some a) lt2 then f_g * S * sqrt (PI * a / 1000)
                     else f_g * S * sqrt (PI * eff / 1000) in
      match rpow delta_K m with
      | None => match ct with Edge => Err TypeError | Center => Ok (nan_state s) end
      | Some p =>
        let da := C * p * 1000 in
        let a_crit := 1 / PI * (Kc / (f_g * S)) ^ 2 + d / 1000 in
        let a' := Some (a + da) in
        let N' := Datatypes.S (it_N s) in
        let prev := if Nat.eqb N' 1 then a' else it_prev s in
        Ok {| it_a := a'; it_eff := Some (eff + da); it_N := N'; it_crit := Some a_crit;
              it_stage1 := (if nlt prev lt2 && nlt lt2 a' then it_N s else it_stage1 s);
              it_prev := a' |}
      end
    end
  | _, _ => Ok (nan_state s)
  end.

(** The stopping tests: PoF.py 2055-2059 *)
Definition it_finished (d : R) (a_final : option R) (s : it_state) : bool :=
  nlt (option_map (fun c => c * 1000) (it_crit s)) (it_eff s)
  || match a_final with None => false | Some af => nlt (Some (af + d)) (it_eff s) end.

(** The loop; [Ok None]: still running after [fuel] passes. *)
Fixpoint it_loop (step : it_state -> result it_state) (fin : it_state -> bool) (fuel : nat) (s : it_state)
  : result (option it_state) :=
  match fuel with
  | O => Ok None
  | S k => let! s' := step s in if fin s' then Ok (Some s') else it_loop step fin k s'
  end.

Record cgi_out := {
  cgi_Nf_1 : nat; cgi_Nf_2 : nat; cgi_Nf_tot : nat;
  cgi_final : option R;  (* final_crack_length_iterative *)
  cgi_length : option R  (* the crack length a when the loop stops, the last point of the plot *)
}.

(** Iterative method: PoF.py 1988-2065. (1.12 * Kt / f_g) ** 2 = 1 divides by zero, as
    for Python floats. *)
Definition crack_growth_iterative (Kc C m P W t Kt a_initial : R) (D a_final : option R) (ct : crack) (fuel : nat)
  : result (option cgi_out) :=
  let d := match D with None => 0 | Some d => d end in
  let! lt2 := (match f_g_at ct W (a_initial + d) with
               | None => Ok None
               | Some f_g => rmap Some (pdiv d ((1.12 * Kt / f_g) ^ 2 - 1))
               end) in
  let s0 := {| it_a := Some a_initial; it_eff := Some (a_initial + d); it_N := 0; it_crit := None; it_stage1 := 0; it_prev := None |} in
  let! r := it_loop (it_step Kc C m P W t d lt2 ct) (it_finished d a_final) fuel s0 in
  Ok (match r with
      | None => None
      | Some s => Some {| cgi_Nf_1 := it_stage1 s; cgi_Nf_2 := (it_N s - it_stage1 s)%nat; cgi_Nf_tot := it_N s;
                          cgi_final := option_map (fun c => c * 1000 - d) (it_crit s); cgi_length := it_a s |}
      end).

(** ** creep_rupture_curves: PoF.py 2215-2276 *)

(** unique_temps and stress_indices (without the final length): PoF.py 2242-2249 *)
Fixpoint first_occurrences (seen : list R) (i : nat) (temps : list R) : list (R * nat) :=
  match temps with
  | [] => []
  | t :: r => if in_dec Req_EM_T t seen then first_occurrences seen (S i) r
              else (t, i) :: first_occurrences (t :: seen) (S i) r
  end.

(** l[i : j] *)
Definition slice {A} (l : list A) (i j : nat) : list A := firstn (j - i) (skipn i l).

(** The data used for each temperature's line: PoF.py 2256-2259 *)
Fixpoint segments (occ : list (R * nat)) (stop : nat) (data : list (R * R)) : list (R * list (R * R)) :=
  match occ with
  | [] => []
  | (t, i) :: r => (t, slice data i (match r with [] => stop | (_, j) :: _ => j end)) :: segments r stop data
  end.
Definition creep_groups (temps : list R) (data : list (R * R)) : list (R * list (R * R)) :=
  segments (first_occurrences [] 0 temps) (length temps) data.

(** The time to failure shown at the trace, or nothing when no trace is drawn. Data are
    (stress, TTF) pairs. A temperature whose line cannot be fitted (all times equal)
    gives numpy's rank-deficient fit; [None] trace here. *)
Definition creep_rupture_curves (temps stress ttf : list R) (stress_trace temp_trace : option R) : result (option R) :=
  match stress_trace, temp_trace with
  | Some _, None | None, Some _ => Err ValueError
  | _, _ =>
    if Nat.ltb (length temps) 2 || Nat.ltb (length stress) 2 || Nat.ltb (length ttf) 2 then Err ValueError
    else if negb (Nat.eqb (length temps) (length stress)) || negb (Nat.eqb (length temps) (length ttf)) then Err ValueError
    else
      (* "temp_trace not in unique_temps": None is in no list of numbers, 2251-2254 *)
      match temp_trace, stress_trace with
      | Some T, Some y =>
          match find (fun g => if Req_EM_T (fst g) T then true else false) (creep_groups temps (combine stress ttf)) with
          | None => Err ValueError
          | Some (_, seg) =>
              match polyfit1 (map (fun p => log10 (snd p)) seg) (map fst seg) with
              | None => Ok None
              | Some (m, c) => Ok (Some (pow10 ((y - c) / m)))
              end
          end
      | _, _ => Err ValueError
      end
  end.

(** ** SN_diagram: PoF.py 101-320 *)

Inductive bounds_method := Statistical | Residual | NoBounds.

Definition maxabs (l : list R) : R := fold_right (fun x m => Rmax (Rabs x) m) 0 l.

Record sn_out := {
  sn_m : R; sn_c : R; sn_residual : R;
  sn_curve : R -> R;                       (* the plotted line as a function of cycles *)
  sn_bounds : option ((R -> R) * (R -> R)) (* lower, upper *);
  sn_life : R -> R; sn_strength : R -> R   (* the traces *)
}.

(** [runout]: the stress_runout array when it and cycles_runout are both given;
    [show]: the show_endurance_limit argument. [tinv]: ss.t.ppf((CI+1)/2, n-2).
    Checks of types and of xscale are omitted. The arrays over xvals are functions. *)
Definition SN_diagram (stress cycles : list R) (runout : option (list R)) (show : option bool)
    (method : bounds_method) (CI : R) (tinv : R -> nat -> R) : result sn_out :=
  if negb (Nat.eqb (length cycles) (length stress)) then Err ValueError
  else if Rle_dec CI 0 then Err ValueError
  else if Rle_dec 1 CI then Err ValueError
  else
    let endurance : option R :=
      match runout, show with
      | None, _ => None
      | Some r, None => Some (mean r)
      | Some r, Some true => Some (mean r)
      | Some _, Some false => None
      end in
    match polyfit1 (map log10 cycles) stress with
    | None => Err RuntimeError
    | Some (m, c) =>
      let line := fun x => m * log10 x + c in
      let residual := maxabs (map (fun p => line (fst p) - snd p) (combine cycles stress)) in
      let curve := fun x => match endurance with None => line x | Some e => Rmax (line x) e end in
      let! bounds :=
        (match method with
         | NoBounds => Ok None
         | Residual =>
             match endurance with
             | Some e => Ok (Some (fun x => Rmax (line x - residual) (e - residual), fun x => Rmax (line x + residual) (e + residual)))
             | None => Err NameError  (* y_upper is only assigned with an endurance limit: UnboundLocalError *)
             end
         | Statistical =>
             let n := length cycles in
             let x_av := mean cycles in
             let STEYX := sqrt (rsum (map (fun p => (snd p - line (fst p)) ^ 2) (combine cycles stress)) / (INR n - 2)) in
             let DEVSQ := rsum (map (fun x => (x - x_av) ^ 2) cycles) in
             let CL := fun x => tinv ((CI + 1) / 2) (n - 2)%nat * STEYX * sqrt (1 / INR n + (x - x_av) ^ 2 / DEVSQ) in
             Ok (Some (fun x => curve x - CL x, fun x => curve x + CL x))
         end) in
      Ok {| sn_m := m; sn_c := c; sn_residual := residual; sn_curve := curve; sn_bounds := bounds;
            sn_life := fun s => pow10 ((s - c) / m); sn_strength := line |}
    end.

(** ** stress_strain_life_parameters_from_data: PoF.py 398-404, 443-450 *)
Record sslp := { p_K : R; p_n : R; p_life : option (R * R * R * R) (* sigma_f, b, epsilon_f, c *) }.

Definition params_from_data (strain stress : list R) (E : R) (cycles : option (list R)) : option sslp :=
  let elastic := map (fun s => s / E) stress in
  let plastic := map (fun p => fst p - snd p) (combine strain elastic) in
  match polyfit1 (map log10 plastic) (map log10 stress) with
  | None => None
  | Some (f0, f1) =>
    match cycles with
    | None => Some {| p_K := pow10 f1; p_n := f0; p_life := None |}
    | Some cy =>
      let cy2 := map (Rmult 2) cy in
      match polyfit1 (map log10 cy2) (map log10 elastic), polyfit1 (map log10 cy2) (map log10 plastic) with
      | Some (g0, g1), Some (h0, h1) =>
          Some {| p_K := pow10 f1; p_n := f0; p_life := Some (E * pow10 g1, g0, pow10 h1, h0) |}
      | _, _ => None
      end
    end
  end.

(** ** stress_strain_diagram: PoF.py 593-760 *)

(** The function handed to fsolve on the initial loading: PoF.py 603-604 *)
Definition ramberg_osgood (E K n epsilon sigma : R) : option R :=
  match rpow (sigma / K) (1 / n) with None => None | Some p => Some (sigma / E + p - epsilon) end.
(** The function handed to fsolve on the reversals: PoF.py 606-611 *)
Definition ramberg_osgood_delta (E K n delta_epsilon delta_sigma : R) : option R :=
  match rpow (delta_sigma / (2 * K)) (1 / n) with None => None | Some p => Some (delta_sigma / E + 2 * p - delta_epsilon) end.

(** What scipy's fsolve is asked for: a root. *)
Definition root (f : R -> option R) (x : R) : Prop := f x = Some 0.

Inductive direction := Tension | Compression.

(** max_strain, min_strain: PoF.py 613-634, strain given *)
Definition strain_limits_of_strain (max_strain : R) (min_strain : option R) : R * R :=
  (max_strain, match min_strain with None => - max_strain | Some e => e end).
(** max_strain, min_strain: PoF.py 618-626, stress given ([None]: a power of a negative number) *)
Definition strain_limits_of_stress (E K n max_stress : R) (min_stress : option R) : option (R * R) :=
  match rpow (max_stress / K) (1 / n) with
  | None => None
  | Some p => let emax := max_stress / E + p in
      match min_stress with
      | None => Some (emax, - emax)
      | Some s => match rpow (- s / K) (1 / n) with None => None | Some q => Some (emax, - (- s / E + q)) end
      end
  end.

(** Stress arrays of the first and second reversal from the solver's roots: PoF.py
    655-716. [s1] ends with the stress at the end of the initial loading. *)
Definition reversal2 (dir : direction) (s1 : list R) (d2 : list R) : list R :=
  let s := last s1 0 in map (fun d => match dir with Tension => s - d | Compression => s + d end) d2.
Definition reversal3 (dir : direction) (s2 : list R) (d3 : list R) : list R :=
  let s := last s2 0 in map (fun d => match dir with Tension => s + d | Compression => s - d end) d3.

(** np.linspace(a, b, 1000) *)
Definition linspace1000 (a b : R) : list R :=
  let n := N.to_nat 1000 in map (fun i => a + INR i * ((b - a) / INR (n - 1))) (seq 0 n).

(** A run of the function: [s1], [d2], [d3] are the solver's answers at each point of
    the strain grids (PoF.py 637-716), all exact roots on the physical branch: stresses of
    the sign of the load, stress changes not negative. *)
Record loop_run (E K n max_strain min_strain : R) (dir : direction) (s1 d2 d3 : list R) : Prop := {
  run_s1 : Forall2 (fun e s => root (ramberg_osgood E K n e) s)
             (linspace1000 0 (match dir with Tension => max_strain | Compression => min_strain end)) s1;
  run_d2 : Forall2 (fun e d => root (ramberg_osgood_delta E K n e) d) (linspace1000 0 (max_strain - min_strain)) d2;
  run_d3 : Forall2 (fun e d => root (ramberg_osgood_delta E K n e) d) (linspace1000 0 (max_strain - min_strain)) d3;
  run_sign1 : Forall (fun s => match dir with Tension => 0 <= s | Compression => s <= 0 end) s1;
  run_sign2 : Forall (fun d => 0 <= d) d2;
  run_sign3 : Forall (fun d => 0 <= d) d3
}.

(** ** strain_life_diagram: PoF.py 872-1120 *)

(** max_stress, max_strain, min_stress, min_strain when stress is given: PoF.py 893-902 *)
Definition sl_limits_of_stress (E K n max_stress : R) (min_stress : option R) : option (R * R * R * R) :=
  match rpow (max_stress / K) (1 / n) with
  | None => None
  | Some p => let emax := max_stress / E + p in
      match min_stress with
      | None => Some (max_stress, emax, - max_stress, - emax)
      | Some s => match rpow (s / K) (1 / n) with None => None | Some q => Some (max_stress, emax, s, s / E + q) end
      end
  end.

Inductive msc := Morrow | ModifiedMorrow | SWT.

(** Elastic and plastic strain lines at x reversals: PoF.py 967-968 (no mean stress),
    1012-1015, 1083-1090, 1142-1147. [smax]: maximum stress. *)
Definition elastic_line (meth : option msc) (E sigma_f mean_stress smax b x : R) : R :=
  match meth with
  | None => sigma_f / E * Rpower x b
  | Some SWT => sigma_f ^ 2 / E * Rpower x (2 * b) / smax
  | Some _ => (sigma_f - mean_stress) / E * Rpower x b
  end.
Definition plastic_line (meth : option msc) (sigma_f epsilon_f mean_stress smax b c x : R) : R :=
  match meth with
  | None | Some Morrow => epsilon_f * Rpower x c
  | Some ModifiedMorrow => epsilon_f * Rpower ((sigma_f - mean_stress) / sigma_f) (c / b) * Rpower x c
  | Some SWT => sigma_f * epsilon_f * Rpower x (b + c) / smax
  end.
(** The equation handed to fsolve: PoF.py 931-936, 973-980, 1024-1033, 1098-1105 *)
Definition life_equation (meth : option msc) (E sigma_f epsilon_f mean_stress smax b c eps_tot x : R) : R :=
  match meth with
  | None => sigma_f / E * Rpower x b + epsilon_f * Rpower x c - eps_tot
  | Some Morrow => (sigma_f - mean_stress) / E * Rpower x b + epsilon_f * Rpower x c - eps_tot
  | Some ModifiedMorrow => (sigma_f - mean_stress) / E * Rpower x b
       + epsilon_f * Rpower ((sigma_f - mean_stress) / sigma_f) (c / b) * Rpower x c - eps_tot
  | Some SWT => (sigma_f ^ 2 / E * Rpower x (2 * b) + sigma_f * epsilon_f * Rpower x (b + c)) / smax - eps_tot
  end.
(** Transition life: PoF.py 948, 993-995, 1046-1051, 1117 *)
Definition cycles_2Nt (meth : option msc) (E sigma_f epsilon_f mean_stress b c : R) : R :=
  match meth with
  | None | Some SWT => Rpower (epsilon_f * E / sigma_f) (1 / (b - c))
  | Some Morrow => Rpower (epsilon_f * E / (sigma_f - mean_stress)) (1 / (b - c))
  | Some ModifiedMorrow =>
      Rpower (epsilon_f * E * Rpower ((sigma_f - mean_stress) / sigma_f) (c / b) / (sigma_f - mean_stress)) (1 / (b - c))
  end.

(** ** fracture_mechanics_crack_initiation: PoF.py 1560-1708 *)
Definition ci_S_net (P A : R) : R := 10 ^ 6 * P / A.
Definition ci_Kf (q Kt : R) : R := 1 + q * (Kt - 1).

(** The equations for the notch stress and its range: PoF.py 1567-1575 and 1651-1657.
    [elastic]: Kt * S_net <= Sy. *)
Definition ci_neuber (elastic : bool) (E K n se sigma : R) : R :=
  if elastic then sigma / E - se / sigma else sigma / E + Rpower (sigma / K) (1 / n) - se / sigma.
Definition ci_massing (elastic : bool) (E K n dd ds : R) : R :=
  if elastic then ds / (2 * E) - dd / (2 * ds)
  else ds / (2 * E) + Rpower (ds / (2 * K)) (1 / n) - dd / (2 * ds).

Record ci_out := { ci_smin : R; ci_smax : R; ci_smean : R; ci_emin : R; ci_emax : R; ci_emean : R }.

(** The reported stresses and strains from the two roots: PoF.py 1577-1599, 1659-1673 *)
Definition ci_limits (se dd sigma delta_sigma : R) : ci_out :=
  let epsilon := se / sigma in
  let delta_epsilon := dd / delta_sigma in
  let smin := sigma - delta_sigma in
  let emin := epsilon - delta_epsilon in
  {| ci_smin := smin; ci_smax := sigma; ci_smean := smin + delta_sigma * 0.5;
     ci_emin := emin; ci_emax := epsilon; ci_emean := emin + delta_epsilon * 0.5 |}.

(** The equation for the number of reversals: PoF.py 1601-1646, 1675-1707 *)
Definition ci_life (elastic : bool) (meth : msc) (E sigma_f epsilon_f b c sigma delta_epsilon smean x : R) : R :=
  match elastic, meth with
  | false, Morrow => (sigma_f - smean) / E * Rpower x b + epsilon_f * Rpower x c - delta_epsilon * 0.5
  | false, ModifiedMorrow => (sigma_f - smean) / E * Rpower x b
        + epsilon_f * Rpower ((sigma_f - smean) / sigma_f) (c / b) * Rpower x c - delta_epsilon * 0.5
  | false, SWT => sigma_f ^ 2 / E * Rpower x (2 * b) + sigma_f * epsilon_f * Rpower x (b + c) - sigma * delta_epsilon * 0.5
  | true, Morrow | true, ModifiedMorrow => (sigma_f - smean) / E * Rpower x b - delta_epsilon * 0.5
  | true, SWT => sigma_f ^ 2 / E * Rpower x (2 * b) - sigma * delta_epsilon * 0.5
  end.

(** A run: the solver's answers are positive exact roots (PoF.py 1577-1708); [Nf2] the
    number of reversals; the object reports Nf2 / 2 cycles. *)
Record ci_run (P A Sy E K n b c sigma_f epsilon_f Kt q : R) (meth : msc) (sigma delta_sigma Nf2 : R) : Prop := {
  cr_sigma_pos : 0 < sigma; cr_ds_pos : 0 < delta_sigma; cr_N_pos : 0 < Nf2;
  cr_sigma : forall el, (el = true <-> Kt * ci_S_net P A <= Sy) ->
      ci_neuber el E K n ((ci_Kf q Kt * ci_S_net P A) ^ 2 / E) sigma = 0;
  cr_ds : forall el, (el = true <-> Kt * ci_S_net P A <= Sy) ->
      ci_massing el E K n ((ci_Kf q Kt * ci_S_net P A * 2) ^ 2 / E) delta_sigma = 0;
  cr_life : forall el, (el = true <-> Kt * ci_S_net P A <= Sy) ->
      ci_life el meth E sigma_f epsilon_f b c sigma ((ci_Kf q Kt * ci_S_net P A * 2) ^ 2 / E / delta_sigma)
        (ci_smean (ci_limits ((ci_Kf q Kt * ci_S_net P A) ^ 2 / E) ((ci_Kf q Kt * ci_S_net P A * 2) ^ 2 / E) sigma delta_sigma)) Nf2 = 0
}.
