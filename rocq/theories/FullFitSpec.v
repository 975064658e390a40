(** Specification of what the thirteen fitters of a single distribution report. *)
From Coquelicot Require Import Coquelicot.
From Coq Require Import String.
From Coq Require Import List Arith Reals.
From Verif Require Import Base Ext RList ConvertModel DistModel CIModel SelModel RegModel FArgModel.
Import ListNotations.
Open Scope R_scope.

(** The fitters of a single distribution. *)
Definition single (d : dname) : Prop :=
  match d with D_Everything | D_Weibull_Mixture | D_Weibull_CR | D_Weibull_DSZI | D_Weibull_DS | D_Weibull_ZI => False | _ => True end.
(** How many parameters each has. *)
Definition n_params (d : dname) : nat :=
  match d with
  | D_Exponential_1P => 1
  | D_Weibull_3P | D_Lognormal_3P | D_Gamma_3P | D_Loglogistic_3P => 3
  | _ => 2
  end.
(** The distribution with the parameters of a list, in the order of the table of results. *)
Definition with_params (d : dname) (p : list R) : dist :=
  let x := nth 0 p 0 in let y := nth 1 p 0 in let z := nth 2 p 0 in
  match d with
  | D_Weibull_3P => Weibull x y z
  | D_Exponential_1P => Exponential x 0
  | D_Exponential_2P => Exponential x y
  | D_Normal_2P => Normal x y
  | D_Gumbel_2P => Gumbel x y
  | D_Lognormal_2P => Lognormal x y 0
  | D_Lognormal_3P => Lognormal x y z
  | D_Gamma_2P => Gamma x y 0
  | D_Gamma_3P => Gamma x y z
  | D_Beta_2P => DistModel.Beta x y
  | D_Loglogistic_2P => Loglogistic x y 0
  | D_Loglogistic_3P => Loglogistic x y z
  | _ => Weibull x y 0
  end.
(** The location parameter, 0 in the models that have none. *)
Definition location (d : dname) (p : list R) : R :=
  match d with
  | D_Weibull_3P | D_Lognormal_3P | D_Gamma_3P | D_Loglogistic_3P => nth 2 p 0
  | D_Exponential_2P => nth 1 p 0
  | _ => 0
  end.
(** Parameters a distribution can have: the scale and shape are positive, the location not negative. *)
Definition proper (d : dname) (p : list R) : Prop :=
  match d with D_Normal_2P | D_Gumbel_2P | D_Lognormal_2P | D_Lognormal_3P => True | _ => 0 < nth 0 p 0 end /\
  match d with D_Exponential_1P | D_Exponential_2P => True | _ => 0 < nth 1 p 0 end /\ 0 <= location d p.
(** Times inside the support. *)
Definition inside (d : dname) (p : list R) (t : R) : Prop :=
  match d with D_Normal_2P | D_Gumbel_2P => True | D_Beta_2P => 0 < t < 1 | _ => location d p < t end.
(** The density of the distribution object, and its survival probability, at t. *)
Definition density (o : dist) (t v : R) : Prop := PDF o [t] = Ok [Fin v].
Definition survival (o : dist) (t v : R) : Prop := SF o [t] = Ok [v].
(** The number of estimated parameters: one less when the shape is forced. *)
Definition estimated (d : dname) (forced : bool) : nat := if forced then n_params d - 1 else n_params d.

(** Within the bounds given to an optimizer. *)
Definition within (b : option R * option R) (x : R) : Prop :=
  match fst b with Some l => l <= x | None => True end /\ match snd b with Some u => x <= u | None => True end.
(** The parameters with q in place of those that are estimated together: the location (and a forced
    shape) is held at its value in p. *)
Definition holding (d : dname) (forced : bool) (p q : list R) : list R :=
  match d with
  | D_Weibull_3P | D_Lognormal_3P | D_Gamma_3P | D_Loglogistic_3P => [nth 0 q 0; nth 1 q 0; nth 2 p 0]
  | D_Exponential_1P => [nth 0 q 0]
  | D_Exponential_2P => [nth 0 q 0; nth 1 p 0]
  | _ => if forced then [nth 0 q 0; nth 1 p 0] else [nth 0 q 0; nth 1 q 0]
  end.
(** The parameters that are free then. *)
Definition free_part (d : dname) (forced : bool) (p : list R) : list R :=
  match d with
  | D_Exponential_1P | D_Exponential_2P => firstn 1 p
  | _ => if forced then firstn 1 p else firstn 2 p
  end.

(** What is assumed of the least squares routine: it returns as many numbers as the model has parameters, and
    a forced shape as it was given. *)
Definition complete_guess (ls : dname -> option RegModel.rr -> option R -> list R -> list R -> result (list R)) : Prop :=
  (forall d m force F C g, ls d m force F C = Ok g -> length g = n_params d) /\
  (forall d m s F C g, d = D_Weibull_2P \/ d = D_Normal_2P \/ d = D_Lognormal_2P -> ls d m (Some s) F C = Ok g -> nth 1 g 0 = s).
(** What is assumed of an optimizer: it returns as many numbers as it was given; it stays within the bounds;
    its answer is not worse than its start. *)
Definition keeps_length (minimize : list (option R * option R) -> opt -> (list R -> R) -> list R -> bool * list R) : Prop :=
  forall b o f g, length (snd (minimize b o f g)) = length g.
Definition keeps_bounds (minimize : list (option R * option R) -> opt -> (list R -> R) -> list R -> bool * list R) : Prop :=
  forall b o f g, Forall2 within b g -> Forall2 within b (snd (minimize b o f g)).
Definition never_worse (minimize : list (option R * option R) -> opt -> (list R -> R) -> list R -> bool * list R) : Prop :=
  forall b o f g, f (snd (minimize b o f g)) <= f g.

(** The shape the user forced, if the fitter has that argument. *)
Definition forced_shape (d : dname) (a : fit_args) : option R :=
  match d with D_Weibull_2P => a_force_beta a | D_Normal_2P | D_Lognormal_2P => a_force_sigma a | _ => None end.

(** The Gamma fitters store the errors of mu, the logarithm of alpha, in the distribution object. *)
Definition with_log_scale (d : dname) : bool := match d with D_Gamma_2P | D_Gamma_3P => true | _ => false end.
(** The variance of parameter i: from the matrix of the parameters that are free (V), for the third one from
    the matrix of all (W), and 0 for the location of the Exponential and a forced shape. *)
Definition variance (d : dname) (forced : bool) (V W : nat -> nat -> R) (i : nat) : R :=
  if (i <? match d with D_Exponential_1P | D_Exponential_2P => 1 | _ => if forced then 1 else 2 end)%nat then V i i
  else if (i =? 2)%nat then W i i else 0.
(** The covariance of the first two. *)
Definition stored_cov (d : dname) (forced : bool) (V M : nat -> nat -> R) : R :=
  match d with
  | D_Exponential_1P | D_Exponential_2P => 0
  | D_Gamma_2P | D_Gamma_3P => M 0%nat 1%nat
  | _ => if forced then 0 else V 0%nat 1%nat
  end.

(** The same call with another method. *)
Definition by_method (a : fit_args) (m : text) : fit_args :=
  mkFit (a_failures a) (a_right_censored a) m (a_optimizer a) (a_CI a) (a_quantiles a) (a_force_beta a) (a_force_sigma a) (a_CI_type a).
(** The fitters whose cumulative distribution plots as a straight line. *)
Definition rank_regression (d : dname) : bool :=
  match d with
  | D_Weibull_2P | D_Exponential_1P | D_Normal_2P | D_Gumbel_2P | D_Lognormal_2P | D_Loglogistic_2P => true
  | _ => false
  end.
