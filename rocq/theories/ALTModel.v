(** Model of ALT_fitters.py: the 24 accelerated life test fitters and Fit_Everything_ALT, and of
    ALT_fitters_input_checking, ALT_least_squares and ALT_MLE_optimization (Utils.py). Not modelled:
    printing and plots. Stresses are positive numbers (numpy gives inf or nan for 1 / 0). *)
From Coquelicot Require Import Coquelicot.
From Coq Require Import String.
From Coq Require Import List Arith Reals Lra Lia Bool ZArith Ascii.
From Verif Require Import Base RealFacts Gauss Ext RList ConvertModel RepairModel DistModel CombModel RegModel FitModel SelModel CIModel OtherModel.
Import ListNotations.
Open Scope R_scope.

(** ** Grouping by stress: pandas groupby in Utils.py:2181-2187, 2224-2232 (single stress), 2264-2270,
    2322-2330 (dual stress). Keys ascending, values in their original order. *)
Section Groups.
  Context {K : Type} (kle : K -> K -> bool) (kdec : forall a b : K, {a = b} + {a <> b}).
  Definition group_keys (ks : list K) : list K := isort kle (nodup kdec ks).
  Definition group_values (k : K) (ks : list K) (vs : list R) : list R :=
    map snd (filter (fun p => if kdec (fst p) k then true else false) (combine ks vs)).
  Definition groupby (ks : list K) (vs : list R) : list (list R) := map (fun k => group_values k ks vs) (group_keys ks).
  (** list.insert; beyond the end it appends. *)
  Definition list_insert (i : nat) (x : list R) (l : list (list R)) : list (list R) := firstn i l ++ x :: skipn i l.
  (** 2243-2245 and 2341-2343: for i, stress in enumerate(unique_failure_stresses): ... insert(i, []). *)
  Fixpoint add_empty (i : nat) (fkeys ckeys : list K) (g : list (list R)) : list (list R) :=
    match fkeys with
    | [] => g
    | k :: r => add_empty (S i) r ckeys (if in_dec kdec k ckeys then g else list_insert i [] g)
    end.
  (** failure_groups, right_censored_groups and stresses_for_groups before they are reversed. [strict]: the
      check 2331-2338 that a censored stress is a failure stress, made for pairs of stresses only (2233-2240 is
      commented out). *)
  Definition stress_groups (strict : bool) (fkeys : list K) (failures : list R) (ckeys : list K) (right_censored : list R)
    : result (list K * list (list R) * option (list (list R))) :=
    let ufk := group_keys fkeys in
    let fg := groupby fkeys failures in
    match right_censored with
    | [] => Ok (ufk, fg, None)
    | _ :: _ =>
        let uck := group_keys ckeys in
        if strict && negb (forallb (fun k => if in_dec kdec k ufk then true else false) uck) then Err ValueError
        else Ok (ufk, fg, Some (add_empty 0 ufk uck (groupby ckeys right_censored)))
    end.
End Groups.

(** ** ALT_fitters_input_checking, Utils.py:1965-2378. Arguments that are not lists of numbers raise
    ValueError as well (2072-2094); they are not represented. *)
Inductive use_stress := U_number (x : R) | U_list (l : list R).
Record alt_args := {
  g_failures : list R; g_stress_1 : option (list R); g_stress_2 : option (list R);
  g_censored : option (list R); g_censored_1 : option (list R); g_censored_2 : option (list R);
  g_CI : R; g_optimizer : option string; g_use : option use_stress }.
Record alt_checked := {
  k_failures : list R; k_stress_1 : list R; k_stress_2 : list R;
  k_censored : list R; k_censored_1 : list R; k_censored_2 : list R;
  k_CI : R; k_optimizer : option string; k_use : option (R * R);
  k_failure_groups : list (list R); k_censored_groups : option (list (list R)); k_stresses : list (R * R) }.
(** The second component of a stress is 0 when there is a single stress. *)
Definition Rpair_dec (a b : R * R) : {a = b} + {a <> b}.
Proof. destruct a, b. destruct (Req_EM_T r r1), (Req_EM_T r0 r2); [left; congruence|right; congruence..]. Defined.

(** 2144-2162 *)
Definition check_optimizer (o : option string) : result (option string) :=
  match o with
  | None => Ok None
  | Some s =>
      if String.eqb (upper s) "TNC" then Ok (Some "TNC"%string)
      else if String.eqb (upper s) "POWELL" then Ok (Some "powell"%string)
      else if str_in (upper s) ["L-BFGS-B"; "LBFGSB"]%string then Ok (Some "L-BFGS-B"%string)
      else if str_in (upper s) ["NELDER-MEAD"; "NELDERMEAD"; "NM"]%string then Ok (Some "nelder-mead"%string)
      else if str_in (upper s) ["ALL"; "BEST"]%string then Ok (Some "best"%string)
      else Err ValueError
  end.
(** 2348-2361 *)
Definition check_use (dual : bool) (u : option use_stress) : result (option (R * R)) :=
  match u, dual with
  | None, _ => Ok None
  | Some (U_number x), false => Ok (Some (x, 0))
  | Some (U_list _), false => Err ValueError
  | Some (U_number _), true => Err ValueError
  | Some (U_list [x; y]), true => Ok (Some (x, y))
  | Some (U_list _), true => Err ValueError
  end.
(** 1996-2012; None: "Everything". *)
Definition is_dual (model : option ls_model) (a : alt_args) : bool :=
  match model with
  | None => match g_stress_2 a with Some _ => true | None => false end
  | Some m => dual_stress m
  end.
Definition min_failures_reqd (dual : bool) : nat := if dual then 4%nat else 3%nat.
(** 2015-2069: the stresses that are used. None for the right censored data means that they are ignored. *)
Definition check_stresses (dual : bool) (a : alt_args) : result (list R * list R * (list R * list R * list R)) :=
  let! f :=
    match g_stress_1 a, g_stress_2 a with
    | Some s1, Some s2 => Ok (s1, if dual then s2 else [])
    | Some s1, None => if dual then Err ValueError else Ok (s1, [])
    | None, _ => Err ValueError
    end in
  let! c :=
    match g_censored a with
    | None => Ok ([], [], [])
    | Some rc =>
        match g_censored_1 a, g_censored_2 a with
        | Some s1, Some s2 => Ok (rc, s1, if dual then s2 else [])
        | Some s1, None => if dual then Err ValueError else Ok (rc, s1, [])
        | None, _ => Err ValueError
        end
    end in
  Ok (fst f, snd f, c).
(** [kle]: the order of the strings "s1_s2" that stand for pairs of stresses (2251-2255 and 2306-2312); str and
    float of a number are inverse to each other. *)
Definition alt_check (kle : R * R -> R * R -> bool) (model : option ls_model) (a : alt_args) : result alt_checked :=
  let dual := is_dual model a in
  let! s := check_stresses dual a in
  let '(s1, s2, (rc, c1, c2)) := s in
  let failures := g_failures a in
  (* 2104-2125 *)
  if negb (length failures =? length s1)%nat || (dual && negb (length failures =? length s2)%nat) then Err ValueError
  else if negb (length rc =? length c1)%nat || (dual && negb (length rc =? length c2)%nat) then Err ValueError
  (* 2128-2131; min of nothing raises ValueError *)
  else if (length (failures ++ rc) =? 0)%nat || existsb (fun t => Rleb t 0) (failures ++ rc) then Err ValueError
  (* 2134-2141 *)
  else if Rleb (g_CI a) 0 || Rleb 1 (g_CI a) then Err ValueError
  else
    let! optimizer := check_optimizer (g_optimizer a) in
    (* 2165-2173 *)
    if (unique_count s1 <? 2)%nat then Err ValueError
    else if dual && (unique_count s2 <? 2)%nat then Err ValueError
    else
      let! g :=
        if dual then stress_groups kle Rpair_dec true (combine s1 s2) failures (combine c1 c2) rc
        else
          let! g := stress_groups Rleb Req_EM_T false s1 failures c1 rc in
          Ok (map (fun x => (x, 0)) (fst (fst g)), snd (fst g), snd g) in
      let '(keys, fg, cg) := g in
      (* 2191-2214 and 2274-2297; the sum is taken before the censored groups are made, which matters only for
         which ValueError is raised *)
      if (list_sum (map unique_count fg) <? min_failures_reqd dual)%nat then Err ValueError
      else
        let! use := check_use dual (g_use a) in
        Ok {| k_failures := failures; k_stress_1 := s1; k_stress_2 := s2; k_censored := rc; k_censored_1 := c1; k_censored_2 := c2;
              k_CI := g_CI a; k_optimizer := optimizer; k_use := use;
              k_failure_groups := rev fg; k_censored_groups := option_map (@rev _) cg; k_stresses := rev keys |}.

(** ** The likelihood of the 24 fitters *)
Inductive alt_dist := A_Weibull | A_Lognormal | A_Normal | A_Exponential.
(** The parameters of the life-stress models in the order of params in LL and of the bounds in Utils.py
    6044-6075: Exponential [a; b], Eyring [a; c], Power [a; n], Dual_Exponential [a; b; c],
    Power_Exponential [a; c; n], Dual_Power [c; m; n]. *)
Record ls_params := { l_0 : R; l_1 : R; l_2 : R }.
(** life, in the first lines of logf and logR: ALT_fitters.py 3223 (Weibull), 6144 (Lognormal), 9089 (Normal), 11990
    (Exponential) for Exponential; 3673, 6601, 9543, 12416 for Eyring; 4120, 7057, 9994, 12841 for Power; 4639, 7579,
    10511, 13335 for Dual_Exponential; 5161, 8102, 11033, 13834 for Power_Exponential; 5678, 8622, 11550, 14330 for
    Dual_Power. The same expressions are used for life_func in each fitter (e.g. 3080-3081). *)
Definition alt_life (m : ls_model) (p : ls_params) (s1 s2 : R) : R :=
  match m with
  | OtherModel.LS_Exponential => l_1 p * exp (l_0 p / s1)
  | LS_Eyring => 1 / s1 * exp (- (l_1 p - l_0 p / s1))
  | LS_Power => l_0 p * Rpower s1 (l_1 p)
  | LS_Dual_Exponential => l_2 p * exp (l_0 p / s1 + l_1 p / s2)
  | LS_Power_Exponential => l_1 p * Rpower s2 (l_2 p) * exp (l_0 p / s1)
  | LS_Dual_Power => l_0 p * Rpower s1 (l_1 p) * Rpower s2 (l_2 p)
  end.
(** logf and logR after the life has been computed: 3223-3232 (Weibull), 6144-6156 (Lognormal), 9089-9098 (Normal),
    11990-11998 (Exponential). The same in the other life-stress models. *)
Definition alt_logf (d : alt_dist) (life shape t : R) : R :=
  match d with
  | A_Weibull => (shape - 1) * ln (t / life) + ln (shape / life) - Rpower (t / life) shape
  | A_Lognormal => ln (exp (- (1 / 2) * ((ln t - ln life) / shape) ^ 2) / (t * shape * sqrt (2 * PI)))
  | A_Normal => ln (exp (- (1 / 2) * ((t - life) / shape) ^ 2)) - ln (shape * sqrt (2 * PI))
  | A_Exponential => ln (1 / life) - 1 / life * t
  end.
Definition alt_logR (d : alt_dist) (life shape t : R) : R :=
  match d with
  | A_Weibull => - Rpower (t / life) shape
  | A_Lognormal => ln (1 / 2 - 1 / 2 * erf ((ln t - ln life) / (shape * sqrt 2)))
  | A_Normal => ln ((1 + erf ((life - t) / shape / sqrt 2)) / 2)
  | A_Exponential => - (1 / life * t)
  end.
(** The second stress of every item: none for single stress models. *)
Definition second (dual : bool) (s2 : list R) (s1 : list R) : list R := if dual then s2 else map (fun _ => 0) s1.
(** LL: e.g. 3234-3244. *)
Definition alt_LL (d : alt_dist) (m : ls_model) (p : ls_params) (shape : R) (f : list (R * (R * R))) (rc : list (R * (R * R))) : R :=
  - (rsum (map (fun i => alt_logf d (alt_life m p (fst (snd i)) (snd (snd i))) shape (fst i)) f)
     + rsum (map (fun i => alt_logR d (alt_life m p (fst (snd i)) (snd (snd i))) shape (fst i)) rc)).
Definition items (dual : bool) (t s1 s2 : list R) : list (R * (R * R)) := combine t (combine s1 (second dual s2 s1)).

(** ** ALT_least_squares, Utils.py:5132-5264 *)

(** np.linalg.inv(xx.T.dot(xx)).dot(xx.T).dot(yy) for the rows (1, x, y) and the value z, 5209; None: singular. *)
Definition solve3 (x y z : list R) : option (R * R * R) :=
  let n := INR (length x) in
  let sx := rsum x in let sy := rsum y in let sz := rsum z in
  let sxx := dotp x x in let sxy := dotp x y in let syy := dotp y y in let sxz := dotp x z in let syz := dotp y z in
  let det := n * (sxx * syy - sxy * sxy) - sx * (sx * syy - sxy * sy) + sy * (sx * sxy - sxx * sy) in
  if Req_EM_T det 0 then None
  else Some ((sz * (sxx * syy - sxy * sxy) - sx * (sxz * syy - sxy * syz) + sy * (sxz * sxy - sxx * syz)) / det,
             (n * (sxz * syy - sxy * syz) - sz * (sx * syy - sxy * sy) + sy * (sx * syz - sxz * sy)) / det,
             (n * (sxx * syz - sxz * sxy) - sx * (sx * syz - sxz * sy) + sz * (sx * sxy - sxx * sy)) / det).
(** [noisy]: the solution after random noise was added, 5211-5222; None: singular again. *)
Definition plane (noisy : option (R * R * R)) (x y z : list R) : R * R * R :=
  match solve3 x y z with
  | Some s => s
  | None => match noisy with Some s => s | None => (1, 2, 3) end
  end.
Definition line (x y : list R) : result (R * R) :=
  let! l := linear_regression x y None None None (Some RRY) in
  match l with Some mc => Ok mc | None => Err ValueError end.
Definition inverses (l : list R) : list R := map (fun s => 1 / s) l.
Definition logs (l : list R) : list R := map ln l.
Definition ALT_least_squares (m : ls_model) (noisy : option (R * R * R)) (L S1 S2 : list R) : result ls_params :=
  match m with
  | OtherModel.LS_Exponential => let! s := line (inverses S1) (logs L) in Ok {| l_0 := fst s; l_1 := exp (snd s); l_2 := 0 |}
  | LS_Eyring => let! s := line (inverses S1) (zip Rplus (logs L) (logs S1)) in Ok {| l_0 := fst s; l_1 := - snd s; l_2 := 0 |}
  | LS_Power => let! s := line (logs S1) (logs L) in Ok {| l_0 := exp (snd s); l_1 := fst s; l_2 := 0 |}
  | LS_Dual_Exponential => let '(s0, s1, s2) := plane noisy (inverses S1) (inverses S2) (logs L) in Ok {| l_0 := s1; l_1 := s2; l_2 := exp s0 |}
  | LS_Power_Exponential => let '(s0, s1, s2) := plane noisy (inverses S1) (logs S2) (logs L) in Ok {| l_0 := s1; l_1 := exp s0; l_2 := s2 |}
  | LS_Dual_Power => let '(s0, s1, s2) := plane noisy (logs S1) (logs S2) (logs L) in Ok {| l_0 := exp s0; l_1 := s1; l_2 := s2 |}
  end.

(** ** ALT_MLE_optimization, Utils.py:5830-6250: as MLE_optimization with the log-likelihood instead of twice the
    log-likelihood (5988, 6037), so half of LL stands in for its objective. *)
Definition ALT_MLE {P} (minimize : opt -> P -> bool * P) (LL_func : P -> R) (optimizer : option string) (guess : P) : result (bool * option opt * P) :=
  MLE_optimization minimize (fun p => LL_func p / 2) optimizer guess.

(** ** The fitters: __init__ of Fit_Weibull_Exponential, 2899-3142, and likewise the other 23 *)

(** The parameters as the attributes a, b, c, m and n of the fitter, Utils.py 6155-6174 and 6211-6230. *)
Definition named (m : ls_model) (p : ls_params) : alt_params :=
  match m with
  | OtherModel.LS_Exponential => {| q_a := Some (l_0 p); q_b := Some (l_1 p); q_c := None; q_n := None; q_m := None |}
  | LS_Eyring => {| q_a := Some (l_0 p); q_b := None; q_c := Some (l_1 p); q_n := None; q_m := None |}
  | LS_Power => {| q_a := Some (l_0 p); q_b := None; q_c := None; q_n := Some (l_1 p); q_m := None |}
  | LS_Dual_Exponential => {| q_a := Some (l_0 p); q_b := Some (l_1 p); q_c := Some (l_2 p); q_n := None; q_m := None |}
  | LS_Power_Exponential => {| q_a := Some (l_0 p); q_b := None; q_c := Some (l_1 p); q_n := Some (l_2 p); q_m := None |}
  | LS_Dual_Power => {| q_a := None; q_b := None; q_c := Some (l_0 p); q_n := Some (l_2 p); q_m := Some (l_1 p) |}
  end.
(** The estimates in the order of the results table; no shape for the Exponential distribution. *)
Definition estimates (d : alt_dist) (m : ls_model) (p : ls_params) (shape : R) : list R :=
  (if dual_stress m then [l_0 p; l_1 p; l_2 p] else [l_0 p; l_1 p]) ++ match d with A_Exponential => [] | _ => [shape] end.
(** How the limits are computed, e.g. 3009-3017. *)
Definition estimate_kinds (d : alt_dist) (m : ls_model) : list pkind :=
  match m with
  | OtherModel.LS_Exponential => [PLin; PLog]
  | LS_Eyring => [PLin; PLin]
  | LS_Power => [PLog; PLin]
  | LS_Dual_Exponential => [PLin; PLin; PLog]
  | LS_Power_Exponential => [PLin; PLog; PLin]
  | LS_Dual_Power => [PLog; PLin; PLin]
  end ++ match d with A_Exponential => [] | _ => [PLog] end.
(** 2994-3038, as [fit_limits]. *)
Definition alt_limits (d : alt_dist) (m : ls_model) (CI : R) (ests : list R) (diag : option (list R)) (optimizer : option opt) : result (list limits) :=
  match diag with
  | Some c => Ok (limits_of (estimate_kinds d m) (Z_of CI) ests (map (fun v => sqrt (Rabs v)) c))
  | None =>
    match optimizer with
    | None => Err TypeError
    | Some _ => Ok (map (fun e => {| p_est := e; p_se := 0; p_lower := Fin e; p_upper := Fin e |}) ests)
    end
  end.
(** distribution_at_use_stress, e.g. 3084-3089 (Weibull), 6005-6010 (Lognormal), 8952-8957 (Normal), 11851-11856 (Exponential) *)
Definition alt_distribution (d : alt_dist) (life shape : R) : dist :=
  match d with
  | A_Weibull => Weibull life shape 0
  | A_Lognormal => Lognormal (ln life) shape 0
  | A_Normal => Normal life shape
  | A_Exponential => Exponential (1 / life) 0
  end.
(** A row of change_of_parameters: stress, the parameters fitted to the group alone, life at that stress, the
    acceleration factor. *)
Record change_row := { h_stress : R * R; h_original : option (R * R); h_life : R; h_AF : option R }.
Record alt_result := {
  a_params : ls_params; a_shape : R; a_success : bool; a_optimizer : option opt;
  a_limits : list limits; a_gof : gof; a_use : option dist; a_change : list change_row }.

(** The distribution fitted to the data of one stress, 2955-2961. *)
Definition group_dname (d : alt_dist) : dname :=
  match d with A_Weibull | A_Exponential => D_Weibull_2P | A_Lognormal => D_Lognormal_2P | A_Normal => D_Normal_2P end.
(** 2945-2967. [fit2P name f rc]: (scale, shape) found by the fitter of that name. *)
Fixpoint group_fits (d : alt_dist) (fit2P : dname -> list R -> list R -> R * R) (fg : list (list R)) (cg : list (list R)) : result (list (option (R * R))) :=
  match fg with
  | [] => Ok []
  | f :: r =>
      let rc := hd [] cg in
      let! one := if (1 <? length f)%nat then let! c := check_data (group_dname d) false f rc in Ok (Some (fit2P (group_dname d) (fst c) (snd c))) else Ok None in
      let! rest := group_fits d fit2P r (tl cg) in
      Ok (one :: rest)
  end.
Definition shapes (l : list (option (R * R))) : list R := flat_map (fun o => match o with Some p => [snd p] | None => [] end) l.
(** 2969-2972 *)
Definition common_shape (l : list (option (R * R))) : R := match shapes l with [] => 1 | s => rsum s / INR (length s) end.

(** [minimize]: scipy's optimizers on the parameters and the shape; [diag]: the diagonal of the inverse of the Hessian
    at the estimate, None if it has no inverse. *)
Definition alt_fit (kle : R * R -> R * R -> bool) (d : alt_dist) (m : ls_model) (noisy : option (R * R * R)) (fit2P : dname -> list R -> list R -> R * R)
    (minimize : opt -> ls_params * R -> bool * (ls_params * R)) (diag : ls_params * R -> option (list R)) (a : alt_args) : result alt_result :=
  let! k := alt_check kle (Some m) a in
  let dual := dual_stress m in
  let! guess := ALT_least_squares m noisy (k_failures k) (k_stress_1 k) (k_stress_2 k) in
  let! fits := group_fits d fit2P (k_failure_groups k) (match k_censored_groups k with None => [] | Some g => g end) in
  let f := items dual (k_failures k) (k_stress_1 k) (k_stress_2 k) in
  let rc := items dual (k_censored k) (k_censored_1 k) (k_censored_2 k) in
  let LL x := alt_LL d m (fst x) (snd x) f rc in
  let! r := ALT_MLE minimize LL (k_optimizer k) (guess, common_shape fits) in
  let '(success, optimizer, est) := r in
  let ests := estimates d m (fst est) (snd est) in
  let! lims := alt_limits d m (k_CI k) ests (diag est) optimizer in
  let life s := alt_life m (fst est) (fst s) (snd s) in
  Ok {| a_params := fst est; a_shape := snd est; a_success := success; a_optimizer := optimizer; a_limits := lims;
        a_gof := goodness (Z.of_nat (length (k_failures k) + length (k_censored k))) (Z.of_nat (length ests)) (2 * LL est);
        a_use := match k_use k with None => None | Some u => Some (alt_distribution d (life u) (snd est)) end;
        a_change := map (fun p => {| h_stress := fst p; h_original := snd p; h_life := life (fst p);
                                     h_AF := match k_use k with None => None | Some u => Some (life u / life (fst p)) end |})
                        (combine (k_stresses k) fits) |}.

(** ** Fit_Everything_ALT, ALT_fitters.py:31-1835 *)
Definition alt_name : Type := alt_dist * ls_model.
Definition single_models : list alt_name :=
  flat_map (fun d => [(d, OtherModel.LS_Exponential); (d, LS_Eyring); (d, LS_Power)]) [A_Weibull; A_Lognormal; A_Normal; A_Exponential].
Definition dual_models : list alt_name :=
  flat_map (fun d => [(d, LS_Dual_Exponential); (d, LS_Power_Exponential); (d, LS_Dual_Power)]) [A_Weibull; A_Lognormal; A_Normal; A_Exponential].
(** 272-302 *)
Definition name_string (n : alt_name) : string :=
  (match fst n with A_Weibull => "Weibull" | A_Lognormal => "Lognormal" | A_Normal => "Normal" | A_Exponential => "Exponential" end ++ "_" ++
   match snd n with
   | OtherModel.LS_Exponential => "Exponential" | LS_Eyring => "Eyring" | LS_Power => "Power" | LS_Dual_Exponential => "Dual_Exponential"
   | LS_Power_Exponential => "Power_Exponential" | LS_Dual_Power => "Dual_Power" end)%string.
(** str.title of ASCII text: a letter that follows no letter in upper case, the other letters in lower case. *)
Definition is_upper (c : ascii) : bool := let n := nat_of_ascii c in (65 <=? n)%nat && (n <=? 90)%nat.
Definition is_lower (c : ascii) : bool := let n := nat_of_ascii c in (97 <=? n)%nat && (n <=? 122)%nat.
Definition to_upper (c : ascii) : ascii := if is_lower c then ascii_of_nat (nat_of_ascii c - 32) else c.
Definition to_lower (c : ascii) : ascii := if is_upper c then ascii_of_nat (nat_of_ascii c + 32) else c.
Fixpoint title_from (after_letter : bool) (s : string) : string :=
  match s with
  | EmptyString => EmptyString
  | String c r => String (if after_letter then to_lower c else to_upper c) (title_from (is_upper c || is_lower c) r)
  end.
Definition title (s : string) : string := title_from false s.
(** 304-334: excluded_models *)
Definition excluded_models (exclude : list string) (dual : bool) : list string :=
  filter (fun s => str_in s (map name_string (single_models ++ dual_models))) (map title exclude)
  ++ map name_string (if dual then single_models else dual_models).
(** The models fitted, in the order of the blocks 368-1546 *)
Definition models_to_fit (exclude : list string) (dual : bool) : list alt_name :=
  filter (fun n => negb (str_in (name_string n) (excluded_models exclude dual))) (single_models ++ dual_models).
Record alt_row := { w_name : alt_name; w_params : ls_params; w_shape : R; w_loglik : R; w_AICc : option R; w_BIC : R }.
Definition w_AICc_value (r : alt_row) : R := match w_AICc r with Some v => v | None => 0 end.
Definition w_has_AICc (r : alt_row) : bool := match w_AICc r with Some _ => true | None => false end.
(** 1549-1585. [sort]: pandas' sort_values. *)
Definition alt_sort_rows (sort : (alt_row -> R) -> list alt_row -> list alt_row) (sort_by : string) (rows : list alt_row) : result (list alt_row) :=
  let sort_by := if str_in (upper sort_by) ["AIC"; "AICC"]%string && negb (forallb w_has_AICc rows) then "BIC"%string else sort_by in
  let u := upper sort_by in
  let! df2 :=
    if String.eqb u "BIC" then Ok (sort w_BIC rows)
    else if str_in u ["AICC"; "AIC"]%string then Ok (sort w_AICc_value rows)
    else if str_in u loglik_names then Ok (sort (fun r => Rabs (w_loglik r)) rows)
    else Err ValueError in
  match df2 with [] => Err ValueError | _ => Ok df2 end.
(** best_model_at_use_stress, 1592-1790: Lambda and mu of the dual stress models are not those of the fitters. *)
Definition best_at_use (n : alt_name) (p : ls_params) (shape : R) (u : R * R) : dist :=
  let life := alt_life (snd n) p (fst u) (snd u) in
  match fst n, dual_stress (snd n) with
  | A_Weibull, _ => Weibull life shape 0
  | A_Lognormal, false => Lognormal (ln life) shape 0
  | A_Lognormal, true => Lognormal (1 / life) shape 0
  | A_Normal, _ => Normal life shape
  | A_Exponential, false => Exponential (1 / life) 0
  | A_Exponential, true => Exponential life 0
  end.
(** One fit: the row that Fit_Everything_ALT writes, e.g. 368-415. *)
Definition row_of (n : alt_name) (r : alt_result) : alt_row :=
  {| w_name := n; w_params := a_params r; w_shape := a_shape r; w_loglik := loglik (a_gof r); w_AICc := AICc (a_gof r); w_BIC := BIC (a_gof r) |}.
Fixpoint fit_rows (fit : alt_name -> result alt_result) (ns : list alt_name) : result (list alt_row) :=
  match ns with
  | [] => Ok []
  | n :: r => let! one := fit n in let! rest := fit_rows fit r in Ok (row_of n one :: rest)
  end.
(** The arguments handed to each fitter after the first input check: use_level_stress, optimizer and the
    right censored data (an empty array if there are none) as checked. *)
Definition checked_args (dual : bool) (k : alt_checked) : alt_args :=
  {| g_failures := k_failures k; g_stress_1 := Some (k_stress_1 k); g_stress_2 := if dual then Some (k_stress_2 k) else None;
     g_censored := Some (k_censored k); g_censored_1 := Some (k_censored_1 k); g_censored_2 := if dual then Some (k_censored_2 k) else None;
     g_CI := k_CI k; g_optimizer := k_optimizer k;
     g_use := match k_use k with None => None | Some u => Some (if dual then U_list [fst u; snd u] else U_number (fst u)) end |}.
(** [fit n a]: the fitter of model n with its oracles. The result: the table, the best model's name and its
    distribution at the use stress. *)
Definition Fit_Everything_ALT (kle : R * R -> R * R -> bool) (fit : alt_name -> alt_args -> result alt_result)
    (sort : (alt_row -> R) -> list alt_row -> list alt_row) (exclude : list string) (sort_by : string) (a : alt_args)
    : result (list alt_row * alt_name * option dist) :=
  let! k := alt_check kle None a in
  let dual := negb (length (k_stress_2 k) =? 0)%nat in
  let! rows := fit_rows (fun n => fit n (checked_args dual k)) (models_to_fit exclude dual) in
  let! df2 := alt_sort_rows sort sort_by rows in
  match df2 with
  | [] => Err IndexError
  | best :: _ => Ok (df2, w_name best, match k_use k with None => None | Some u => Some (best_at_use (w_name best) (w_params best) (w_shape best) u) end)
  end.
