(** Specification of the arguments of the fitters. *)
From Coq Require Import String.
From Coq Require Import List Reals.
From Verif Require Import Base ConvertModel SelModel InputModel FArgModel.
Import ListNotations.
Open Scope R_scope.

(** The names in capitals and what they stand for. *)
Definition method_names : list (string * string) :=
  [("MLE", "MLE"); ("ML", "MLE"); ("MAXIMUM LIKELIHOOD ESTIMATION", "MLE"); ("MAXIMUM LIKELIHOOD", "MLE"); ("MAX LIKELIHOOD", "MLE");
   ("LS", "LS"); ("LEAST SQUARES", "LS"); ("LSQ", "LS"); ("NLRR", "LS"); ("NLLS", "LS"); ("RRX", "RRX"); ("RRY", "RRY")]%string.
Definition optimizer_names : list (string * string) :=
  [("TNC", "TNC"); ("L-BFGS-B", "L-BFGS-B"); ("LBFGSB", "L-BFGS-B"); ("NELDER-MEAD", "nelder-mead"); ("NELDERMEAD", "nelder-mead"); ("NM", "nelder-mead");
   ("POWELL", "powell"); ("BEST", "best"); ("ALL", "best")]%string.
Definition CI_type_names : list (string * string) :=
  [("T", "time"); ("TIME", "time"); ("R", "reliability"); ("REL", "reliability"); ("RELIABILITY", "reliability"); ("NONE", "none"); ("OFF", "none")]%string.
(** An argument that is absent, or one of the names in any capitalisation. *)
Definition understood (names : list (string * string)) (a : text) (r : option string) : Prop :=
  match a with
  | No_text => r = None
  | Text s => exists c, In (upper s, c) names /\ r = Some c
  | Not_text => False
  end.

(** The data that can be fitted, and what is left of them: zeros (and ones, for Beta) are dropped. *)
Definition signed (d : dname) : Prop := d = D_Normal_2P \/ d = D_Gumbel_2P.
Definition keep (d : dname) (t : R) : Prop := signed d \/ (t <> 0 /\ (d = D_Beta_2P -> t <> 1)).
Definition in_range (d : dname) (t : R) : Prop := signed d \/ (0 <= t /\ (d = D_Beta_2P -> t <= 1)).
(** [l] with the elements that do not satisfy P left out. *)
Inductive sublist_of (P : R -> Prop) : list R -> list R -> Prop :=
| so_nil : sublist_of P [] []
| so_keep x l m : P x -> sublist_of P l m -> sublist_of P (x :: l) (x :: m)
| so_drop x l m : ~ P x -> sublist_of P l m -> sublist_of P (x :: l) m.
(** At least n different values. *)
Definition distinct (n : nat) (l : list R) : Prop := exists m, NoDup m /\ incl m l /\ length m = n.
(** How many different failures a fitter needs. *)
Definition needed (d : dname) (forced : Prop) (n : nat) : Prop :=
  match d with
  | D_Weibull_3P | D_Gamma_3P | D_Lognormal_3P | D_Loglogistic_3P => n = 3%nat
  | D_Weibull_Mixture | D_Weibull_CR => n = 4%nat
  | D_Exponential_1P => n = 1%nat
  | _ => (forced -> n = 1%nat) /\ (~ forced -> n = 2%nat)
  end.

(** What the argument quantiles asks for. *)
Definition asks_default (q : quant) : Prop := q = Q_bool true \/ q = Q_str "auto" \/ q = Q_str "default" \/ q = Q_str "on".
Definition asks_values (q : quant) (l : list R) : Prop := q = Q_seq l /\ l <> [] /\ Forall (fun v => 0 < v < 1) l.
