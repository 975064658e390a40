(** Model of fitters_input_checking (data checks), of the choice of distributions, the sorting
    and the best distribution in Fit_Everything, and of the choices made by LS_optimization
    and MLE_optimization. *)
From Coquelicot Require Import Coquelicot.
From Coq Require Import String.
From Coq Require Import List Arith Reals Lra Lia Bool Sorting.Sorted Permutation.
From Verif Require Import Base RealFacts Ext RList ConvertModel RepairModel DistModel.
Import ListNotations.
Open Scope R_scope.

(** ** fitters_input_checking, Utils.py:1507-1877: the checks on the data *)
Inductive dname :=
| D_Everything | D_Weibull_2P | D_Weibull_3P | D_Gamma_2P | D_Gamma_3P | D_Exponential_1P | D_Exponential_2P | D_Gumbel_2P
| D_Normal_2P | D_Lognormal_2P | D_Lognormal_3P | D_Loglogistic_2P | D_Loglogistic_3P | D_Beta_2P | D_Weibull_Mixture
| D_Weibull_CR | D_Weibull_DSZI | D_Weibull_DS | D_Weibull_ZI.
Definition dname_eqb (a b : dname) : bool :=
  match a, b with
  | D_Everything, D_Everything | D_Weibull_2P, D_Weibull_2P | D_Weibull_3P, D_Weibull_3P | D_Gamma_2P, D_Gamma_2P | D_Gamma_3P, D_Gamma_3P
  | D_Exponential_1P, D_Exponential_1P | D_Exponential_2P, D_Exponential_2P | D_Gumbel_2P, D_Gumbel_2P | D_Normal_2P, D_Normal_2P
  | D_Lognormal_2P, D_Lognormal_2P | D_Lognormal_3P, D_Lognormal_3P | D_Loglogistic_2P, D_Loglogistic_2P | D_Loglogistic_3P, D_Loglogistic_3P
  | D_Beta_2P, D_Beta_2P | D_Weibull_Mixture, D_Weibull_Mixture | D_Weibull_CR, D_Weibull_CR | D_Weibull_DSZI, D_Weibull_DSZI
  | D_Weibull_DS, D_Weibull_DS | D_Weibull_ZI, D_Weibull_ZI => true
  | _, _ => false
  end.
Definition dmem (d : dname) (l : list dname) : bool := existsb (dname_eqb d) l.

Definition Rneqb (a b : R) : bool := if Req_EM_T a b then false else true.
(** len(np.unique(l)) *)
Definition unique_count (l : list R) : nat := length (nodup Req_EM_T l).
(** 1788-1816; [forced]: force_beta or force_sigma is given. *)
Definition min_failures (d : dname) (forced : bool) : nat :=
  match d with
  | D_Weibull_3P | D_Gamma_3P | D_Lognormal_3P | D_Loglogistic_3P => 3
  | D_Exponential_1P => 1
  | D_Weibull_Mixture | D_Weibull_CR => 4
  | _ => if forced then 1 else 2
  end.
(** 1638-1700 and 1788-1853: the arrays after checking. min and max of no data raise ValueError. *)
Definition check_data (d : dname) (forced : bool) (failures right_censored : list R) : result (list R * list R) :=
  let all_data := failures ++ right_censored in
  let! data :=
    match d with
    | D_Normal_2P | D_Gumbel_2P => Ok (failures, right_censored)
    | _ =>
      if (length all_data =? 0)%nat then Err ValueError
      else if existsb (fun t => Rltb' t 0) all_data then Err ValueError
      else if dname_eqb d D_Beta_2P && existsb (fun t => Rltb' 1 t) all_data then Err ValueError
      else
        let rc := filter (fun t => Rneqb t 0) right_censored in
        let f := filter (fun t => Rneqb t 0) failures in
        if dname_eqb d D_Beta_2P then Ok (filter (fun t => Rneqb t 1) f, filter (fun t => Rneqb t 1) rc) else Ok (f, rc)
    end in
  if (unique_count (fst data) <? min_failures d forced)%nat then Err ValueError else Ok data.

(** ** The split into two groups in Fit_Weibull_Mixture 3684-3716 and Fit_Weibull_CR 4182-4214 *)

(** [dividing_line]: the point found from scipy's kernel density estimate, an oracle. *)
Definition group_line (dividing_line : R) (failures : list R) : R :=
  let n1 := length (filter (fun t => Rltb' t dividing_line) failures) in
  let n2 := (length failures - n1)%nat in
  let s := isort Rleb failures in
  let dl := if (n1 <? 2)%nat then (nth 1 s 0 + nth 2 s 0) / 2 else dividing_line in
  if (n2 <? 2)%nat then (nth (length s - 2) s 0 + nth (length s - 3) s 0) / 2 else dl.
Definition group_1 (dl : R) (l : list R) : list R := filter (fun t => Rltb' t dl) l.
Definition group_2 (dl : R) (l : list R) : list R := filter (fun t => negb (Rltb' t dl)) l.

(** The data checks a fitter makes, including those of the Weibull_2P fits to the two groups
    inside Weibull_Mixture and Weibull_CR. *)
Definition fitter_accepts (kde : list R -> R) (d : dname) (failures right_censored : list R) : result unit :=
  let! data := check_data d false failures right_censored in
  match d with
  | D_Weibull_Mixture | D_Weibull_CR =>
      let dl := group_line (kde (fst data)) (fst data) in
      let! _ := check_data D_Weibull_2P false (group_1 dl (fst data)) (group_1 dl (snd data)) in
      let! _ := check_data D_Weibull_2P false (group_2 dl (fst data)) (group_2 dl (snd data)) in
      Ok tt
  | _ => Ok tt
  end.

(** ** Fit_Everything: exclusions, 270-394 *)
Definition too_few_excluded : list string :=
  ["Weibull_3P"; "Gamma_3P"; "Loglogistic_3P"; "Lognormal_3P"; "Weibull_Mixture"; "Weibull_CR"]%string.
(** exclude after lines 278-288. A list given by the caller is extended in place. *)
Definition extend_exclude (exclude : list string) (failures : list R) : list string :=
  if (length failures <? 3)%nat then exclude ++ too_few_excluded else exclude.
Definition str_in (s : string) (l : list string) : bool := existsb (String.eqb s) l.
(** 292-376 *)
Definition exclusion (item : string) : option dname :=
  let u := upper item in
  if str_in u ["WEIBULL_2P"; "WEIBULL2P"; "WEIBULL2"]%string then Some D_Weibull_2P
  else if str_in u ["WEIBULL_3P"; "WEIBULL3P"; "WEIBULL3"]%string then Some D_Weibull_3P
  else if str_in u ["GAMMA_2P"; "GAMMA2P"; "GAMMA2"]%string then Some D_Gamma_2P
  else if str_in u ["GAMMA_3P"; "GAMMA3P"; "GAMMA3"]%string then Some D_Gamma_3P
  else if str_in u ["LOGNORMAL_2P"; "LOGNORMAL2P"; "LOGNORMAL2"]%string then Some D_Lognormal_2P
  else if str_in u ["LOGNORMAL_3P"; "LOGNORMAL3P"; "LOGNORMAL3"]%string then Some D_Lognormal_3P
  else if str_in u ["EXPONENTIAL_1P"; "EXPONENTIAL1P"; "EXPONENTIAL1"; "EXPON_1P"; "EXPON1P"; "EXPON1"]%string then Some D_Exponential_1P
  else if str_in u ["EXPONENTIAL_2P"; "EXPONENTIAL2P"; "EXPONENTIAL2"; "EXPON_2P"; "EXPON2P"; "EXPON2"]%string then Some D_Exponential_2P
  else if str_in u ["NORMAL_2P"; "NORMAL2P"; "NORMAL2"]%string then Some D_Normal_2P
  else if str_in u ["GUMBEL_2P"; "GUMBEL2P"; "GUMBEL2"]%string then Some D_Gumbel_2P
  else if str_in u ["LOGLOGISTIC_2P"; "LOGLOGISTIC2P"; "LOGLOGISTIC2"]%string then Some D_Loglogistic_2P
  else if str_in u ["LOGLOGISTIC_3P"; "LOGLOGISTIC3P"; "LOGLOGISTIC3"]%string then Some D_Loglogistic_3P
  else if str_in u ["BETA_2P"; "BETA2P"; "BETA2"]%string then Some D_Beta_2P
  else if str_in u ["WEIBULL MIXTURE"; "WEIBULLMIXTURE"; "WEIBULL_MIXTURE"; "MIXTURE"; "WEIBULLMIX"; "WEIBULL_MIX"; "MIX"]%string then Some D_Weibull_Mixture
  else if str_in u ["WEIBULL CR"; "WEIBULLCR"; "WEIBULL_CR"; "WEIBULL_COMPETING_RISKS"; "WEIBULL_COMPETINGRISKS"; "WEIBULLCOMPETINGRISKS";
                    "WEIBULL COMPETING RISKS"; "WEIBULL COMPETINGRISKS"; "COMPETINGRISKS"; "COMPETING RISKS"; "CR"]%string then Some D_Weibull_CR
  else if str_in u ["WEIBULLDS"; "WEIBULL_DS"; "WEIBULL DS"; "WEIBULL_DEFECTIVE_SUBPOPULATION"; "WEIBULL_DEFECTIVESUBPOPULATION"; "WEIBULLDEFECTIVESUBPOPULATION";
                    "WEIBULL DEFECTIVE SUBPOPULATION"; "DEFECTIVE SUBPOPULATION"; "DEFECTIVESUBPOPULATION"; "DS"]%string then Some D_Weibull_DS
  else None.
Fixpoint recognised (l : list string) : list dname :=
  match l with [] => [] | s :: r => match exclusion s with Some d => d :: recognised r | None => recognised r end end.
(** 389-394 *)
Definition excluded (exclude : list string) (failures right_censored : list R) : list dname :=
  let ex := recognised (extend_exclude exclude failures) in
  if dmem D_Beta_2P ex then ex
  else if existsb (fun t => if Rle_dec 1 t then true else false) (failures ++ right_censored) then ex ++ [D_Beta_2P] else ex.
(** The fits, in the order of lines 420-1188 *)
Definition all_dists : list dname :=
  [D_Weibull_3P; D_Gamma_3P; D_Exponential_2P; D_Lognormal_3P; D_Normal_2P; D_Lognormal_2P; D_Gumbel_2P; D_Weibull_2P; D_Weibull_Mixture;
   D_Weibull_CR; D_Weibull_DS; D_Gamma_2P; D_Exponential_1P; D_Loglogistic_2P; D_Loglogistic_3P; D_Beta_2P].
Definition to_fit (exclude : list string) (failures right_censored : list R) : list dname :=
  filter (fun d => negb (dmem d (excluded exclude failures right_censored))) all_dists.

(** A row of the results: "Insufficient data" for AICc is [None]. *)
Record fit_row := { f_dist : dname; f_loglik : R; f_AICc : option R; f_BIC : R; f_AD : R }.

Fixpoint fit_all (kde : list R -> R) (fit : dname -> fit_row) (ds : list dname) (failures right_censored : list R) : result (list fit_row) :=
  match ds with
  | [] => Ok []
  | d :: r =>
      let! _ := fitter_accepts kde d failures right_censored in
      let! rows := fit_all kde fit r failures right_censored in
      Ok (fit d :: rows)
  end.

(** 1190-1227. [sort key rows]: pandas' sort_values, which is not stable. *)
Definition AICc_value (r : fit_row) : R := match f_AICc r with Some v => v | None => 0 end.
Definition has_AICc (r : fit_row) : bool := match f_AICc r with Some _ => true | None => false end.
Definition loglik_names : list string := ["LOGLIK"; "LOG LIK"; "LOG-LIKELIHOOD"; "LL"; "LOGLIKELIHOOD"; "LOG LIKELIHOOD"]%string.
Definition sort_rows (sort : (fit_row -> R) -> list fit_row -> list fit_row) (sort_by : string) (rows : list fit_row) : result (list fit_row) :=
  let sort_by := if str_in sort_by ["AIC"; "aic"; "aicc"; "AICc"]%string && negb (forallb has_AICc rows) then "BIC"%string else sort_by in
  let u := upper sort_by in
  let! df2 :=
    if String.eqb u "BIC" then Ok (sort f_BIC rows)
    else if str_in u ["AICC"; "AIC"]%string then
      (* comparing a string with a number raises TypeError; equal strings can be sorted *)
      if forallb has_AICc rows || negb (existsb has_AICc rows) then Ok (sort AICc_value rows) else Err TypeError
    else if String.eqb u "AD" then Ok (sort f_AD rows)
    else if str_in u loglik_names then Ok (sort (fun r => Rabs (f_loglik r)) rows)
    else Err ValueError in
  match df2 with [] => Err ValueError | _ => Ok df2 end.

(** Fit_Everything: results and the best row. *)
Definition Fit_Everything (kde : list R -> R) (fit : dname -> fit_row) (sort : (fit_row -> R) -> list fit_row -> list fit_row)
  (exclude : list string) (sort_by : string) (failures right_censored : list R) : result (list fit_row * fit_row) :=
  let! data := check_data D_Everything false failures right_censored in
  let! rows := fit_all kde fit (to_fit exclude (fst data) (snd data)) (fst data) (snd data) in
  let! df2 := sort_rows sort sort_by rows in
  match df2 with [] => Err IndexError | best :: _ => Ok (df2, best) end.

(** ** LS_optimization, Utils.py:5347-5382, method "LS" for the distributions with RRX and RRY *)
Inductive ls_method := M_RRX | M_RRY.
Definition LS_choice {P} (LL_func : P -> R) (guess_RRX guess_RRY : P) : ls_method * P :=
  let loglik_RRX := - LL_func guess_RRX in
  let loglik_RRY := - LL_func guess_RRY in
  if Rlt_dec (Rabs loglik_RRX) (Rabs loglik_RRY) then (M_RRX, guess_RRX) else (M_RRY, guess_RRY).

(** ** MLE_optimization, Utils.py:5385-5827 *)
Inductive opt := TNC | L_BFGS_B | Nelder_Mead | Powell.
Section MLE.
  (** [minimize o g]: scipy.optimize.minimize by method [o] from guess [g]: (success, x). The
      inner while loop, 5542-5590: up to 5 runs until the log-likelihood settles. *)
  Context {P : Type} (minimize : opt -> P -> bool * P) (LL_func : P -> R).
  Fixpoint mle_runs (left : nat) (o : opt) (guess : P) (last : R) : bool * R * P :=
    let (ok, x) := minimize o guess in
    let LL2 := Rabs (2 * LL_func x) in
    match left with
    | S (S _ as l) => if Rlt_dec (1 / 1000) (Rabs (LL2 - last)) then mle_runs l o x LL2 else (ok, LL2, x)
    | _ => (ok, LL2, x)
    end.
  Definition loglik_optimizer (o : opt) (guess : P) : bool * R * P := mle_runs 5 o guess (IZR 1000000).

  (** 5627-5691: all attempts; stops after a success if no optimizer was asked for. *)
  Fixpoint attempts (stop_after_success : bool) (os : list opt) (guess : P) : list (opt * (bool * R * P)) :=
    match os with
    | [] => []
    | o :: r => let a := loglik_optimizer o guess in
        if fst (fst a) && stop_after_success then [(o, a)] else (o, a) :: attempts stop_after_success r guess
    end.
  Definition optimizers_to_try (optimizer : option string) : result (list opt) :=
    match optimizer with
    | None => Ok [TNC; L_BFGS_B; Nelder_Mead; Powell]
    | Some s =>
        if str_in s ["best"; "BEST"; "all"; "ALL"]%string then Ok [TNC; L_BFGS_B; Nelder_Mead; Powell]
        else if String.eqb (upper s) "TNC" then Ok [TNC]
        else if str_in (upper s) ["L-BFGS-B"; "LBFGSB"]%string then Ok [L_BFGS_B]
        else if String.eqb (upper s) "POWELL" then Ok [Powell]
        else if str_in (upper s) ["NELDER-MEAD"; "NELDERMEAD"]%string then Ok [Nelder_Mead]
        else Err ValueError
    end.
  (** 5768-5780: the failed attempts are dropped; then index(min(ALL_loglik)), the first. *)
  Definition a_ok (a : opt * (bool * R * P)) : bool := fst (fst (snd a)).
  Definition a_LL (a : opt * (bool * R * P)) : R := snd (fst (snd a)).
  Definition a_x (a : opt * (bool * R * P)) : P := snd (snd a).
  Fixpoint first_min (best : opt * (bool * R * P)) (l : list (opt * (bool * R * P))) : opt * (bool * R * P) :=
    match l with [] => best | a :: r => first_min (if Rlt_dec (a_LL a) (a_LL best) then a else best) r end.
  (** (success, optimizer, estimate) *)
  Definition MLE_optimization (optimizer : option string) (initial_guess : P) : result (bool * option opt * P) :=
    let! os := optimizers_to_try optimizer in
    let tried := attempts (match optimizer with None => true | Some _ => false end) os initial_guess in
    match filter a_ok tried with
    | [] => Ok (false, None, initial_guess)
    | a :: r => let b := first_min a r in Ok (true, Some (fst b), a_x b)
    end.
End MLE.
