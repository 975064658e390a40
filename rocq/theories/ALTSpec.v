(** Specifications for the accelerated life test fitters. *)
From Coquelicot Require Import Coquelicot.
From Coq Require Import String.
From Coq Require Import List Arith Reals Lra Lia Bool ZArith Sorting.Sorted Permutation.
From Verif Require Import Base RList ConvertModel RepairModel DistModel CombModel FitModel FitSpec SelModel SelSpec CIModel CISpec OtherModel OtherSpec ALTModel.
Import ListNotations.
Open Scope R_scope.

(** ** Grouping *)

(** The times of the items at stress [s], in their original order. *)
Fixpoint at_stress {K} (dec : forall a b : K, {a = b} + {a <> b}) (s : K) (stresses : list K) (times : list R) : list R :=
  match stresses, times with
  | x :: xs, t :: ts => if dec x s then t :: at_stress dec s xs ts else at_stress dec s xs ts
  | _, _ => []
  end.
(** The stress of each item as a pair; the second component is 0 if there is one stress. *)
Definition pairs_of (dual : bool) (s1 s2 : list R) : list (R * R) := if dual then combine s1 s2 else map (fun x => (x, 0)) s1.
Definition failure_stresses (dual : bool) (k : alt_checked) : list (R * R) := pairs_of dual (k_stress_1 k) (k_stress_2 k).
Definition censored_stresses (dual : bool) (k : alt_checked) : list (R * R) := pairs_of dual (k_censored_1 k) (k_censored_2 k).
(** The three lists belong together: every stress at which there are failures appears once, the i-th failure
    group has exactly the failures at the i-th stress, the i-th censored group exactly the censored items. *)
Definition grouped (dual : bool) (k : alt_checked) : Prop :=
  NoDup (k_stresses k) /\
  (forall s, In s (k_stresses k) <-> In s (failure_stresses dual k)) /\
  k_failure_groups k = map (fun s => at_stress Rpair_dec s (failure_stresses dual k) (k_failures k)) (k_stresses k) /\
  k_censored_groups k = match k_censored k with
                        | [] => None
                        | _ => Some (map (fun s => at_stress Rpair_dec s (censored_stresses dual k) (k_censored k)) (k_stresses k))
                        end.

(** ** What is accepted *)
Definition two_values (l : list R) : Prop := exists x y, In x l /\ In y l /\ x <> y.
Definition known_optimizer (o : option string) : Prop :=
  match o with
  | None => True
  | Some s => In (upper s) ["TNC"; "POWELL"; "L-BFGS-B"; "LBFGSB"; "NELDER-MEAD"; "NELDERMEAD"; "NM"; "ALL"; "BEST"]%string
  end.
Definition use_fits (dual : bool) (u : option use_stress) : Prop :=
  match u with
  | None => True
  | Some (U_number _) => dual = false
  | Some (U_list l) => dual = true /\ length l = 2%nat
  end.
(** n different pairs of a failure time and its stress. *)
Definition different_failures (n : nat) (failures : list R) (stresses : list (R * R)) : Prop :=
  exists l, NoDup l /\ incl l (combine stresses failures) /\ length l = n.
(** The stresses and the censored data that are used: a second stress is ignored by a single stress model, and
    stresses of censored items without censored items are ignored. *)
Definition used_stresses (dual : bool) (a : alt_args) (s1 s2 rc c1 c2 : list R) : Prop :=
  g_stress_1 a = Some s1 /\ (if dual then g_stress_2 a = Some s2 else s2 = []) /\
  match g_censored a with
  | None => rc = [] /\ c1 = [] /\ c2 = []
  | Some l => rc = l /\ g_censored_1 a = Some c1 /\ if dual then g_censored_2 a = Some c2 else c2 = []
  end.
Definition acceptable (dual : bool) (a : alt_args) : Prop :=
  exists s1 s2 rc c1 c2,
    used_stresses dual a s1 s2 rc c1 c2 /\
    length s1 = length (g_failures a) /\ length c1 = length rc /\ (dual = true -> length s2 = length (g_failures a) /\ length c2 = length rc) /\
    (forall t, In t (g_failures a) \/ In t rc -> 0 < t) /\
    0 < g_CI a < 1 /\ known_optimizer (g_optimizer a) /\ use_fits dual (g_use a) /\
    two_values s1 /\ (dual = true -> two_values s2) /\
    different_failures (if dual then 4 else 3) (g_failures a) (pairs_of dual s1 s2) /\
    (dual = true -> incl (combine c1 c2) (combine s1 s2)).

(** ** Likelihood *)

(** The parameters that a fitter may report: positive scale and shape. *)
Definition scale_ok (m : ls_model) (p : ls_params) : Prop :=
  match m with
  | OtherModel.LS_Exponential | LS_Power_Exponential => 0 < l_1 p
  | LS_Eyring => True
  | LS_Power | LS_Dual_Power => 0 < l_0 p
  | LS_Dual_Exponential => 0 < l_2 p
  end.
Definition shape_ok (d : alt_dist) (shape : R) : Prop := match d with A_Exponential => True | _ => 0 < shape end.
Definition base_name (d : alt_dist) : string :=
  match d with A_Weibull => "Weibull" | A_Lognormal => "Lognormal" | A_Normal => "Normal" | A_Exponential => "Exponential" end.
Definition beta_of (d : alt_dist) (shape : R) : option R := match d with A_Weibull => Some shape | _ => None end.
Definition sigma_of (d : alt_dist) (shape : R) : option R := match d with A_Lognormal | A_Normal => Some shape | _ => None end.
(** [D] is the distribution of life at stress s: the base distribution with the reported shape whose life is given
    by the life-stress relationship with the reported parameters. *)
Definition life_distribution (d : alt_dist) (m : ls_model) (p : ls_params) (shape : R) (s : R * R) (D : dist) : Prop :=
  exists L, life_stress m (named m p) (fst s) (snd s) L /\ with_life (base_name d) (beta_of d shape) (sigma_of d shape) L D.
Definition density_of (d : alt_dist) (m : ls_model) (p : ls_params) (shape : R) (i : R * (R * R)) (v : R) : Prop :=
  exists D, life_distribution d m p shape (snd i) D /\ density_at (Single D) (fst i) v.
Definition survival_of (d : alt_dist) (m : ls_model) (p : ls_params) (shape : R) (i : R * (R * R)) (v : R) : Prop :=
  exists D, life_distribution d m p shape (snd i) D /\ survival_at (Single D) (fst i) v.
(** Positive time and stresses; the second stress matters for the dual models only. *)
Definition positive_item (dual : bool) (i : R * (R * R)) : Prop := 0 < fst i /\ 0 < fst (snd i) /\ (dual = true -> 0 < snd (snd i)).

(** ** Results *)
Definition nothing_lost (k : alt_checked) : Prop :=
  Permutation (concat (k_failure_groups k)) (k_failures k) /\
  match k_censored_groups k with None => k_censored k = [] | Some g => Permutation (concat g) (k_censored k) end.
(** The positions, in the table of results, of the parameters that are positive by their nature. *)
Definition positive_parameters (d : alt_dist) (m : ls_model) : list nat :=
  match m with
  | OtherModel.LS_Exponential => [1] | LS_Eyring => [] | LS_Power => [0] | LS_Dual_Exponential => [2] | LS_Power_Exponential => [1] | LS_Dual_Power => [0]
  end%nat ++ match d with A_Exponential => [] | _ => [if dual_stress m then 3%nat else 2%nat] end.
Definition number_of_parameters (d : alt_dist) (m : ls_model) : nat :=
  (if dual_stress m then 3 else 2) + match d with A_Exponential => 0 | _ => 1 end.
(** The same call with another confidence level. *)
Definition with_CI (a : alt_args) (CI : R) : alt_args :=
  {| g_failures := g_failures a; g_stress_1 := g_stress_1 a; g_stress_2 := g_stress_2 a; g_censored := g_censored a; g_censored_1 := g_censored_1 a;
     g_censored_2 := g_censored_2 a; g_CI := CI; g_optimizer := g_optimizer a; g_use := g_use a |}.
(** The failures and the censored items with their stresses. *)
Definition data_of (dual : bool) (a : alt_args) (f rc : list (R * (R * R))) : Prop :=
  exists s1 s2 c c1 c2, used_stresses dual a s1 s2 c c1 c2 /\ f = combine (g_failures a) (pairs_of dual s1 s2) /\ rc = combine c (pairs_of dual c1 c2).

(** The distribution fitted to the failures at one stress alone. *)
Definition fitted_alone (d : alt_dist) : dname :=
  match d with A_Weibull => D_Weibull_2P | A_Exponential => D_Weibull_2P | A_Lognormal => D_Lognormal_2P | A_Normal => D_Normal_2P end.

(** The use level stress of a call. *)
Definition use_level (dual : bool) (a : alt_args) (s : R * R) : Prop :=
  if dual then g_use a = Some (U_list [fst s; snd s]) else exists x, g_use a = Some (U_number x) /\ s = (x, 0).

(** ** Initial least squares estimate *)

(** The sum of the squared differences between the logarithms of the failure times and of the lives at their
    stresses. *)
Definition squared_log_error (m : ls_model) (p : ls_params) (f : list (R * (R * R))) (e : R) : Prop :=
  exists lives, Forall2 (fun i l => life_stress m (named m p) (fst (snd i)) (snd (snd i)) l) f lives /\
    e = rsum (map (fun x => (ln (fst (fst x)) - ln (snd x)) ^ 2) (combine f lives)).
(** The stresses on the scales on which a dual stress model is a plane, and stresses that all lie on one line. *)
Definition scale_1 (m : ls_model) (s : R) : R := match m with LS_Power | LS_Dual_Power => ln s | _ => 1 / s end.
Definition scale_2 (m : ls_model) (s : R) : R := match m with LS_Dual_Exponential => 1 / s | _ => ln s end.
Definition aligned (m : ls_model) (f : list (R * (R * R))) : Prop :=
  exists a b c, (a <> 0 \/ b <> 0) /\ forall i, In i f -> a * scale_1 m (fst (snd i)) + b * scale_2 m (snd (snd i)) = c.

(** ** The estimate *)

(** The optimizers that a value of the argument optimizer stands for. *)
Definition stands_for (s : string) (os : list opt) : Prop :=
  (upper s = "TNC"%string /\ os = [TNC]) \/ (upper s = "POWELL"%string /\ os = [Powell]) \/ ((upper s = "L-BFGS-B"%string \/ upper s = "LBFGSB"%string) /\ os = [L_BFGS_B]) \/
  ((upper s = "NELDER-MEAD"%string \/ upper s = "NELDERMEAD"%string \/ upper s = "NM"%string) /\ os = [Nelder_Mead]) \/ ((upper s = "ALL"%string \/ upper s = "BEST"%string) /\ os = [TNC; L_BFGS_B; Nelder_Mead; Powell]).
(** The answer of each optimizer, after one to five runs, each from the previous answer. *)
Definition answers {P} (minimize : opt -> P -> bool * P) (guess : P) (answer : opt -> bool * P) : Prop :=
  forall o, exists k, (1 <= k <= 5)%nat /\ answer o = rerun (minimize o) k guess.
(** The most likely of the successful answers, or the guess if there is none. *)
Definition most_likely {P} (loglik : P -> R) (answer : opt -> bool * P) (os : list opt) (guess : P) (ok : bool) (o : option opt) (x : P) : Prop :=
  (ok = true -> exists o', o = Some o' /\ In o' os /\ answer o' = (true, x) /\ forall o'', In o'' os -> fst (answer o'') = true -> loglik (snd (answer o'')) <= loglik x) /\
  (ok = false -> o = None /\ x = guess /\ forall o'', In o'' os -> fst (answer o'') = false).
(** The first successful answer, or the guess. *)
Definition first_successful {P} (answer : opt -> bool * P) (os : list opt) (guess : P) (ok : bool) (o : option opt) (x : P) : Prop :=
  (ok = true -> exists o' pre post, o = Some o' /\ os = pre ++ o' :: post /\ answer o' = (true, x) /\ forall o'', In o'' pre -> fst (answer o'') = false) /\
  (ok = false -> o = None /\ x = guess /\ forall o'', In o'' os -> fst (answer o'') = false).

(** ** Fit_Everything_ALT *)
Definition alt_sorts (sort : (alt_row -> R) -> list alt_row -> list alt_row) : Prop :=
  forall key rows, Permutation rows (sort key rows) /\ StronglySorted (fun a b => key a <= key b) (sort key rows).
(** The row that belongs to the result of a fitter. *)
Definition row_for (n : alt_name) (r : alt_result) (w : alt_row) : Prop :=
  w_name w = n /\ w_params w = a_params r /\ w_shape w = a_shape r /\ w_loglik w = loglik (a_gof r) /\ w_AICc w = AICc (a_gof r) /\ w_BIC w = BIC (a_gof r).
Inductive alt_criterion := Least_BIC | Least_AICc | Greatest_loglik.
Definition no_worse (c : alt_criterion) (a b : alt_row) : Prop :=
  match c with
  | Least_BIC => w_BIC a <= w_BIC b
  | Least_AICc => match w_AICc a, w_AICc b with Some x, Some y => x <= y | _, _ => False end
  | Greatest_loglik => w_loglik b <= w_loglik a
  end.
Definition loglik_spellings : list string := ["LOGLIK"; "LOG LIK"; "LOG-LIKELIHOOD"; "LL"; "LOGLIKELIHOOD"; "LOG LIKELIHOOD"]%string.

(** The shape the optimizers start from: the average of the shapes of the stresses fitted on
    their own, 1 if there are none. *)
Definition starting_shape (fitted : list (option (R * R))) (shape : R) : Prop :=
  exists l, (forall x, In x l <-> exists a, In (Some (a, x)) fitted) /\ length l = length (filter (fun o => match o with Some _ => true | None => false end) fitted) /\
    rsum l = rsum (map (fun o => match o with Some p => snd p | None => 0 end) fitted) /\
    ((l = [] /\ shape = 1) \/ (l <> [] /\ shape * INR (length l) = rsum l)).
