(** Specifications for the functions of Other_functions.py. *)
From Coquelicot Require Import Coquelicot.
From Coq Require Import String.
From Coq Require Import List Arith Reals Lra Lia Bool Permutation.
From Verif Require Import Base Ext DistModel SelModel OtherModel.
Import ListNotations.
Open Scope R_scope.

(** The probability that an independent item with survival function [S] outlasts one with density [f]:
    the integral over the real line of the density times the survival function. *)
Definition probability_exceeds (S f : R -> R) (v : R) : Prop :=
  is_RInt_gen (fun x => f x * S x) (Rbar_locally m_infty) (Rbar_locally p_infty) v.
Definition real_of (u : ext) : R := match u with Fin x => x | _ => 0 end.

(** The arrays a distribution accepts. *)
Definition accepts (d : dist) (x : R) : Prop :=
  match d with
  | Normal _ _ | Gumbel _ _ => True
  | DistModel.Beta _ _ => 0 <= x <= 1
  | _ => 0 <= x
  end.

(** [c] is [o] times a number in [0, 1). *)
Definition censored_before (o c : R) : Prop := exists u, 0 <= u < 1 /\ c = o * u.
Definition unit_interval (l : list R) : Prop := Forall (fun u => 0 <= u < 1) l.

(** The distribution with its own fitted parameters. *)
Definition own_object (fitted : dname -> fitted_params) (d : dname) : option dist :=
  let f := fitted d in
  match d with
  | D_Weibull_2P => Some (Weibull (par_1 f) (par_2 f) 0)
  | D_Weibull_3P => Some (Weibull (par_1 f) (par_2 f) (par_gamma f))
  | D_Gamma_2P => Some (Gamma (par_1 f) (par_2 f) 0)
  | D_Gamma_3P => Some (Gamma (par_1 f) (par_2 f) (par_gamma f))
  | D_Normal_2P => Some (Normal (par_1 f) (par_2 f))
  | D_Lognormal_2P => Some (Lognormal (par_1 f) (par_2 f) 0)
  | D_Lognormal_3P => Some (Lognormal (par_1 f) (par_2 f) (par_gamma f))
  | D_Exponential_1P => Some (Exponential (par_1 f) 0)
  | D_Exponential_2P => Some (Exponential (par_1 f) (par_gamma f))
  | D_Beta_2P => Some (DistModel.Beta (par_1 f) (par_2 f))
  | D_Loglogistic_2P => Some (Loglogistic (par_1 f) (par_2 f) 0)
  | D_Loglogistic_3P => Some (Loglogistic (par_1 f) (par_2 f) (par_gamma f))
  | D_Gumbel_2P => Some (Gumbel (par_1 f) (par_2 f))
  | _ => None
  end.
Definition location_shifted (d : dname) : bool :=
  match d with D_Weibull_3P | D_Gamma_3P | D_Lognormal_3P | D_Exponential_2P | D_Loglogistic_3P => true | _ => false end.
(** What should be listed for a ranked distribution: itself with its own parameters, unless it is location shifted
    and these are not asked for or the fitted shift is zero. *)
Definition listed (fitted : dname -> fitted_params) (include_location_shifted : bool) (d : dname) : list dist :=
  if location_shifted d && (negb include_location_shifted || if Req_EM_T (par_gamma (fitted d)) 0 then true else false) then []
  else match own_object fitted d with Some x => [x] | None => [] end.

(** What one stress level contributes to the data of make_ALT_data. *)
Record level := { lv_s1 : R; lv_s2 : R; lv_failures : list R; lv_censored : list R }.
Definition level_of (fraction : R) (draw : list R) (s : R * R) (l : level) : Prop :=
  lv_s1 l = fst s /\ lv_s2 l = snd s /\
  exists o, Permutation draw (lv_failures l ++ o) /\ Forall2 censored_before o (lv_censored l) /\
            INR (length (lv_censored l)) <= INR (length draw) * fraction < INR (length (lv_censored l)) + 1.
Definition repeat_for {A} (x : A) (l : list R) : list A := map (fun _ => x) l.
(** The data put together from the levels. *)
Definition level_data (dual : bool) (ls : list level) : alt_data :=
  {| ad_failures := flat_map lv_failures ls; ad_fs1 := flat_map (fun l => repeat_for (lv_s1 l) (lv_failures l)) ls;
     ad_fs2 := if dual then flat_map (fun l => repeat_for (lv_s2 l) (lv_failures l)) ls else [];
     ad_censored := flat_map lv_censored ls; ad_cs1 := flat_map (fun l => repeat_for (lv_s1 l) (lv_censored l)) ls;
     ad_cs2 := if dual then flat_map (fun l => repeat_for (lv_s2 l) (lv_censored l)) ls else [] |}.
(** The life-stress relationships as the documentation writes them, and the distribution whose life is L: the
    scale of a Weibull, the median of a Lognormal, the mean of a Normal or an Exponential distribution. *)
Definition life_stress (m : ls_model) (p : alt_params) (s1 s2 L : R) : Prop :=
  match m with
  | LS_Exponential => exists a b, q_a p = Some a /\ q_b p = Some b /\ L = b * exp (a / s1)
  | LS_Eyring => exists a c, q_a p = Some a /\ q_c p = Some c /\ L = / s1 * exp (- (c - a / s1))
  | LS_Power => exists a n, q_a p = Some a /\ q_n p = Some n /\ L = a * Rpower s1 n
  | LS_Dual_Exponential => exists a b c, q_a p = Some a /\ q_b p = Some b /\ q_c p = Some c /\ L = c * exp (a / s1 + b / s2)
  | LS_Power_Exponential => exists a c n, q_a p = Some a /\ q_c p = Some c /\ q_n p = Some n /\ L = c * exp (a / s1) * Rpower s2 n
  | LS_Dual_Power => exists c m n, q_c p = Some c /\ q_m p = Some m /\ q_n p = Some n /\ L = c * Rpower s1 m * Rpower s2 n
  end.
Definition with_life (distribution : string) (beta sigma : option R) (L : R) (d : dist) : Prop :=
  match d with
  | Weibull alpha b g => distribution = "Weibull"%string /\ alpha = L /\ beta = Some b /\ g = 0
  | Lognormal mu s g => distribution = "Lognormal"%string /\ (0 < L -> exp mu = L) /\ sigma = Some s /\ g = 0
  | Normal mu s => distribution = "Normal"%string /\ mu = L /\ sigma = Some s
  | Exponential lambda g => distribution = "Exponential"%string /\ (L <> 0 -> / lambda = L) /\ g = 0
  | _ => False
  end.
