(** Specification for grouped data. *)
From Coq Require Import String.
From Coq Require Import List Arith Reals Bool.
From Verif Require Import Base SelModel FitModel FArgModel GroupModel.
Import ListNotations.
Open Scope R_scope.

(** A dataframe as documented: the three columns, each category "F" or "C", no time below zero. *)
Definition documented (columns : list string) (rows : list (string * R * nat)) : Prop :=
  (forall c, In c columns <-> c = "category" \/ c = "time" \/ c = "quantity")%string /\
  (forall c t q, In (c, t, q) rows -> (c = "F" \/ c = "C")%string /\ 0 <= t).
(** The items a category of rows stands for. *)
Fixpoint items (category : string) (rows : list (string * R * nat)) : list R :=
  match rows with
  | [] => []
  | (c, t, q) :: r => if String.eqb c category then repeat t q ++ items category r else items category r
  end.
(** Items at time zero say nothing about a Weibull distribution: both fitters drop them. *)
Definition nonzero (l : list R) : list R := filter (fun t => Rneqb t 0) l.
(** Minus the log-likelihood of Weibull_2P (C58) for failures F and right censored items C, as a
    function of (alpha, beta), and as a function of alpha for a given beta. *)
Definition nll (F C : list R) (p : R * R) : R := LL (Weibull_2P (fst p) (snd p)) [] F C.
Definition nll1 (F C : list R) (b a : R) : R := LL (Weibull_2P a b) [] F C.
(** The same fit asked for with the items listed one by one. *)
Definition ungrouped (rows : list (string * R * nat)) (a : fit_args) : fit_args :=
  mkFit (D_seq (items "F" rows)) (D_seq (items "C" rows)) (a_method a) (a_optimizer a) (a_CI a) (a_quantiles a) (a_force_beta a) None (a_CI_type a).
(** An optimizer that finds its answer at once: run again from there it succeeds and stays. *)
Definition settles {P} (minimize : P -> bool * P) (guess answer : P) : Prop :=
  minimize guess = (true, answer) /\ minimize answer = (true, answer).
