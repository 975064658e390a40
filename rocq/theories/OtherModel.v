(** Model of stress_strength, stress_strength_normal, similar_distributions, histogram (the shading),
    make_right_censored_data and make_ALT_data (Other_functions.py). *)
From Coquelicot Require Import Coquelicot.
From Coq Require Import String.
From Coq Require Import List Arith Reals Lra Lia Bool NArith ZArith.
From Verif Require Import Base RealFacts Gauss Ext RList ConvertModel RepairModel TestingModel DistModel CombModel SelModel CIModel.
Import ListNotations.
Open Scope R_scope.

(** ** stress_strength_normal, Other_functions.py:256-380. The returned value; the plot and the
    printed results are left out. *)
Definition stress_strength_normal (stress strength : dist) : result R :=
  match stress with
  | Normal mu_stress sigma_stress =>
      match strength with
      | Normal mu_strength sigma_strength => Ok (Phi (- (mu_strength - mu_stress) / Rpower (sigma_strength ^ 2 + sigma_stress ^ 2) (1 / 2)))
      | _ => Err ValueError
      end
  | _ => Err ValueError
  end.

(** ** stress_strength, 48-253, for two of the eight distributions: Mixture_Model and
    Competing_Risks_Model objects are not modelled, nor are the plot and the warnings. *)
(** np.trapezoid(y, x) for increasing x *)
Fixpoint trapezoid (y : list ext) (x : list R) : ext :=
  match y, x with
  | y0 :: ((y1 :: _) as yr), x0 :: ((x1 :: _) as xr) => eadd (emul (eadd y0 y1) (Fin ((x1 - x0) / 2))) (trapezoid yr xr)
  | _, _ => Fin 0
  end.
(** The grid, 133-138. *)
Definition ss_points : nat := N.to_nat 1000000.
Definition ss_lo (stress strength : dist) : R := Rmin (ppf stress (/ 10 ^ 8)) (ppf strength (/ 10 ^ 8)).
Definition ss_hi (stress strength : dist) : R := Rmax (ppf strength (1 - / 10 ^ 8)) (ppf stress (1 - / 10 ^ 8)).
Definition ss_grid (stress strength : dist) : list R := linspace (ss_lo stress strength) (ss_hi stress strength) ss_points.
Definition stress_strength (stress strength : dist) : result ext :=
  let x := ss_grid stress strength in
  let! f := PDF strength x in
  let! s := SF stress x in
  Ok (trapezoid (zip (fun f s => emul f (Fin s)) f s) x).

(** ** similar_distributions, 383-757: the list of results. [fitted]: the parameters found by
    Fit_Everything (up to three for each distribution, gamma last), [ranked]: the distributions in the order of
    its table of results. *)
Definition name2 (d : dist) : dname :=
  match d with
  | Weibull _ _ g => if Req_EM_T g 0 then D_Weibull_2P else D_Weibull_3P
  | Normal _ _ => D_Normal_2P
  | Lognormal _ _ g => if Req_EM_T g 0 then D_Lognormal_2P else D_Lognormal_3P
  | Exponential _ g => if Req_EM_T g 0 then D_Exponential_1P else D_Exponential_2P
  | Gamma _ _ g => if Req_EM_T g 0 then D_Gamma_2P else D_Gamma_3P
  | DistModel.Beta _ _ => D_Beta_2P
  | Loglogistic _ _ g => if Req_EM_T g 0 then D_Loglogistic_2P else D_Loglogistic_3P
  | Gumbel _ _ => D_Gumbel_2P
  end.
Record fitted_params := { par_1 : R; par_2 : R; par_gamma : R }.
(** list.remove: the first occurrence *)
Fixpoint remove_first (d : dname) (l : list dname) : list dname :=
  match l with [] => [] | x :: r => if dname_eqb x d then r else x :: remove_first d r end.
(** One pass of the loop 521-752: the object appended, if any. The loop compares the names 522-646, then
    those of the location shifted distributions if include_location_shifted. *)
Definition ranked_object (fitted : dname -> fitted_params) (include_location_shifted : bool) (d : dname) : list dist :=
  let f := fitted d in
  let shifted (x : dist) := if include_location_shifted then if Req_EM_T (par_gamma f) 0 then [] else [x] else [] in
  match d with
  | D_Weibull_2P => [Weibull (par_1 f) (par_2 f) 0]
  | D_Gamma_2P => [Gamma (par_1 f) (par_2 f) 0]
  | D_Normal_2P => [Normal (par_1 f) (par_2 f)]
  | D_Lognormal_2P => [Lognormal (par_1 f) (par_2 f) 0]
  | D_Exponential_1P => [Exponential (par_1 f) 0]
  | D_Beta_2P => [DistModel.Beta (par_1 f) (par_2 f)]
  | D_Loglogistic_2P => [Loglogistic (par_1 f) (par_2 f) 0]
  | D_Gumbel_2P => [Gumbel (par_1 f) (par_2 f)]
  | D_Weibull_3P => shifted (Weibull (par_1 f) (par_2 f) (par_gamma f))
  | D_Gamma_3P => shifted (Gamma (par_1 f) (par_2 f) (par_gamma f))
  | D_Lognormal_3P => shifted (Lognormal (par_1 f) (par_2 f) (par_gamma f))
  | D_Exponential_2P => shifted (Exponential (par_1 (fitted D_Exponential_1P)) (par_gamma f))
  | D_Loglogistic_3P => shifted (Loglogistic (par_1 f) (par_2 f) (par_gamma f))
  | _ => []
  end.
(** The samples, 462-477: quantile on np.linspace(0.001, 0.999, 698), the positive ones. *)
Definition similar_samples (d : dist) : list R := map (ppf d) (linspace (1 / 1000) (999 / 1000) 698).
Definition similar_filtered (d : dist) : list R := filter (fun v => Rltb' 0 v) (similar_samples d).
Definition similar_distributions (d : dist) (include_location_shifted : bool) (number_to_show : Z) (ranked : list R -> list dname) (fitted : list R -> dname -> fitted_params) : result (list dist * dist) :=
  if (number_to_show <? 2)%Z then Err ValueError
  else
    let RVS := similar_filtered d in
    if (length RVS <? 175)%nat then Err ValueError
    else
      let names := remove_first (name2 d) (ranked RVS) in
      let objects := flat_map (ranked_object (fitted RVS) include_location_shifted) names in
      match objects with
      | [] => Err IndexError
      | x :: _ => Ok (objects, x)
      end.

(** ** histogram, 824-905: the indices of the bins shaded white, 864-867 and 902-905. [edges]: the bin edges, one
    more than the bins. *)
Definition histogram_white (data edges : list R) (white_above : R) : result (list nat) :=
  if Rltb' white_above (rmin data) then Err ValueError
  else let! j := argmin (map (fun e => Rabs (e - white_above)) edges) in Ok (seq j (length edges - 1 - j)).

(** ** make_right_censored_data, 951-987. The second component is the caller's data after the call:
    np.asarray copies a list but not an array, and np.random.shuffle works in place. [shuffle]:
    np.random.shuffle; [rand]: np.random.rand. *)
Inductive pydata := PyList (l : list R) | NdArray (l : list R).
Definition contents (p : pydata) : list R := match p with PyList l | NdArray l => l end.
Definition make_right_censored_data (shuffle : list R -> list R) (rand : nat -> list R) (data : pydata) (threshold fraction_censored : option R) : result (list R * list R) * pydata :=
  let fraction := match threshold, fraction_censored with None, None => Some (1 / 2) | _, _ => fraction_censored end in
  match threshold, fraction with
  | Some _, Some _ => (Err ValueError, data)
  | None, Some f =>
      let shuffled := shuffle (contents data) in
      let caller := match data with PyList l => PyList l | NdArray _ => NdArray shuffled end in
      if Rltb' f 0 || Rleb 1 f then (Err ValueError, caller)
      else
        let k := Z.to_nat (rfloor (INR (length (contents data)) * f)) in
        (Ok (skipn k shuffled, zip Rmult (firstn k shuffled) (rand k)), caller)
  | Some t, None =>
      (Ok (filter (fun v => Rleb v t) (contents data), map (fun _ => t) (filter (fun v => Rltb' t v) (contents data))), data)
  | None, None => (Err ValueError, data)
  end.

(** ** make_ALT_data, 1068-1275. The stresses are positive numbers (a zero stress gives inf or nan in
    numpy). *)
Inductive ls_model := LS_Exponential | LS_Eyring | LS_Power | LS_Dual_Exponential | LS_Power_Exponential | LS_Dual_Power.
Definition dual_stress (m : ls_model) : bool := match m with LS_Exponential | LS_Eyring | LS_Power => false | _ => true end.
Record alt_params := { q_a : option R; q_b : option R; q_c : option R; q_n : option R; q_m : option R }.
(** life_model at one pair of stresses, 1134-1179, with the checks of the parameters. *)
Definition life_model (m : ls_model) (p : alt_params) : result (R -> R -> R) :=
  match m with
  | LS_Exponential => match q_a p, q_b p with Some a, Some b => if Rleb b 0 then Err ValueError else Ok (fun s1 _ => b * exp (a / s1)) | _, _ => Err ValueError end
  | LS_Eyring => match q_a p, q_c p with Some a, Some c => Ok (fun s1 _ => 1 / s1 * exp (- (c - a / s1))) | _, _ => Err ValueError end
  | LS_Power => match q_a p, q_n p with Some a, Some n => if Rleb a 0 then Err ValueError else Ok (fun s1 _ => a * Rpower s1 n) | _, _ => Err ValueError end
  | LS_Dual_Exponential =>
      match q_a p, q_b p, q_c p with Some a, Some b, Some c => if Rleb c 0 then Err ValueError else Ok (fun s1 s2 => c * exp (a / s1 + b / s2)) | _, _, _ => Err ValueError end
  | LS_Power_Exponential =>
      match q_a p, q_c p, q_n p with Some a, Some c, Some n => if Rleb c 0 then Err ValueError else Ok (fun s1 s2 => c * Rpower s2 n * exp (a / s1)) | _, _, _ => Err ValueError end
  | LS_Dual_Power =>
      match q_c p, q_n p, q_m p with Some c, Some n, Some m => if Rleb c 0 then Err ValueError else Ok (fun s1 s2 => c * Rpower s1 m * Rpower s2 n) | _, _, _ => Err ValueError end
  end.
(** __make_dist, 1193-1218 *)
Definition make_dist (distribution : string) (beta sigma : option R) (life : R) : result dist :=
  if String.eqb distribution "Weibull" then match beta with Some b => Ok (Weibull life b 0) | None => Err ValueError end
  else if String.eqb distribution "Lognormal" then match sigma with Some s => Ok (Lognormal (ln life) s 0) | None => Err ValueError end
  else if String.eqb distribution "Normal" then match sigma with Some s => Ok (Normal life s) | None => Err ValueError end
  else if String.eqb distribution "Exponential" then Ok (Exponential (1 / life) 0)
  else Err ValueError.
Record alt_data := { ad_failures : list R; ad_fs1 : list R; ad_fs2 : list R; ad_censored : list R; ad_cs1 : list R; ad_cs2 : list R }.
Definition alt_empty : alt_data := {| ad_failures := []; ad_fs1 := []; ad_fs2 := []; ad_censored := []; ad_cs1 := []; ad_cs2 := [] |}.
(** One pass of the loop 1220-1255. [samples i d]: the random samples drawn from d for stress i (with its seed). *)
Definition alt_step (dual : bool) (fraction : R) (samples : nat -> dist -> list R) (shuffle : nat -> list R -> list R) (rand : nat -> nat -> list R)
    (mk : R -> result dist) (life : R -> R -> R) (i : nat) (s1 s2 : R) (acc : alt_data) : result alt_data :=
  let! d := mk (life s1 s2) in
  let raw := samples i d in
  if Rleb (rmin raw) 0 then Err ValueError
  else
    let second (l : list R) := if dual then map (fun _ => s2) l else [] in
    if Req_EM_T fraction 0 then
      Ok {| ad_failures := ad_failures acc ++ raw; ad_fs1 := ad_fs1 acc ++ map (fun _ => s1) raw; ad_fs2 := ad_fs2 acc ++ second raw;
            ad_censored := ad_censored acc; ad_cs1 := ad_cs1 acc; ad_cs2 := ad_cs2 acc |}
    else
      let! fc := fst (make_right_censored_data (shuffle i) (rand i) (NdArray raw) None (Some fraction)) in
      Ok {| ad_failures := ad_failures acc ++ fst fc; ad_fs1 := ad_fs1 acc ++ map (fun _ => s1) (fst fc); ad_fs2 := ad_fs2 acc ++ second (fst fc);
            ad_censored := ad_censored acc ++ snd fc; ad_cs1 := ad_cs1 acc ++ map (fun _ => s1) (snd fc); ad_cs2 := ad_cs2 acc ++ second (snd fc) |}.
Fixpoint alt_loop (dual : bool) (fraction : R) (samples : nat -> dist -> list R) (shuffle : nat -> list R -> list R) (rand : nat -> nat -> list R)
    (mk : R -> result dist) (life : R -> R -> R) (i : nat) (stresses : list (R * R)) (acc : alt_data) : result alt_data :=
  match stresses with
  | [] => Ok acc
  | (s1, s2) :: r => let! acc' := alt_step dual fraction samples shuffle rand mk life i s1 s2 acc in alt_loop dual fraction samples shuffle rand mk life (S i) r acc'
  end.
(** The result: the data and the distribution at the use stress, whose mean is mean_life_at_use_stress.
    [use_stress] is a list of one or two numbers; a use stress that is a number for a dual stress model, or a list for
    a single stress model, is not modelled. *)
Definition make_ALT_data (samples : nat -> dist -> list R) (shuffle : nat -> list R -> list R) (rand : nat -> nat -> list R)
    (distribution : string) (m : ls_model) (stress_1 : list R) (stress_2 : option (list R)) (p : alt_params) (beta sigma : option R)
    (use_stress : option (R * R)) (fraction : R) : result (alt_data * option dist) :=
  let s1 := stress_1 ++ match use_stress with Some u => [fst u] | None => [] end in
  let! s2 := if dual_stress m then
               match stress_2 with
               | None => Err ValueError
               | Some l => let s2 := l ++ match use_stress with Some u => [snd u] | None => [] end in
                           if (length s2 =? length s1)%nat then Ok s2 else Err ValueError
               end
             else Ok s1 (* not used *) in
  if Rltb' fraction 0 || Rleb 1 fraction then Err ValueError
  else
    let! life := life_model m p in
    let mk := make_dist distribution beta sigma in
    let! data := alt_loop (dual_stress m) fraction samples shuffle rand mk life 0 (firstn (length stress_1) (combine s1 s2)) alt_empty in
    match use_stress with
    | None => Ok (data, None)
    | Some _ => let! d := mk (life (last s1 0) (last s2 0)) in Ok (data, Some d)
    end.
