(** Model of the check of proportions in Mixture_Model (Distributions.py 8672-8684) and of its callers in the fitters, in double
    precision: every operation is followed by [rnd] (FloatModel). *)
From Coq Require Import List Reals.
From Verif Require Import Base FloatModel.
Import ListNotations.
Open Scope R_scope.

(** np.sum of fewer than eight numbers adds from the left (numpy's pairwise summation starts at eight). *)
Definition np_sum (l : list R) : R := fold_left fadd l 0.

(** 8672-8682, for [n] distributions. *)
Definition fmix_proportions (n : nat) (ps : option (list R)) : result (list R) :=
  match ps with
  | Some p => if Req_EM_T (np_sum p) 1 then (if Nat.eqb (length p) n then Ok p else Err ValueError) else Err ValueError
  | None => Ok (repeat (fdiv 1 (float_of n)) n)
  end.

(** Fit_Weibull_Mixture: proportion_2 = 1 - proportion_1 (Utils.py 5700 and 5789), then Mixture_Model(distributions=[d1, d2],
    proportions=[...]) (Fitters.py 3761-3764; the same in Fit_Everything, 1250-1256). *)
Definition fitted_mixture (proportion_1 : R) : result (list R) :=
  let proportion_2 := fsub 1 proportion_1 in
  fmix_proportions 2 (Some [proportion_1; proportion_2]).
