(** Specifications for the goodness of fit statistic and the plotting helpers. *)
From Coquelicot Require Import Coquelicot.
From Coq Require Import String.
From Coq Require Import List Arith Reals Lra Lia Bool Sorted.
From Verif Require Import Base ConvertModel DistModel DistSpec SelModel PlotModel.
Import ListNotations.
Open Scope R_scope.

(** The empirical distribution function against the fitted one: a step function which is 0 before the first
    fitted value and has the value of the k-th smallest empirical position from the k-th smallest
    fitted value on. [ps] are the empirical positions in increasing order. *)
Definition step_function (zs ps : list R) (z : R) : R := nth (length (filter (fun zi => if Rle_dec zi z then true else false) zs)) (0 :: ps) 0.
(** The Anderson-Darling distance over (0, b). *)
Definition weighted_distance (zs ps : list R) (b : R) : R := RInt (fun z => (step_function zs ps z - z) ^ 2 / (z * (1 - z))) 0 b.

(** The least and the greatest value of [l] occur in [l']. *)
Definition keeps_extremes (l l' : list R) : Prop :=
  (exists v, In v l /\ In v l' /\ forall u, In u l -> v <= u) /\ (exists v, In v l /\ In v l' /\ forall u, In u l -> u <= v).

(** The parameters of the transforms. *)
Definition valid_paper (p : paper) : Prop :=
  match p with P_Gamma b => 0 < b | P_Beta a b => 0 < a /\ 0 < b | _ => True end.
(** The range of the forward transform. *)
Definition on_paper (p : paper) (r : R) : Prop :=
  match p with P_Exponential | P_Gamma _ => 0 < r | P_Beta _ _ => 0 < r < 1 | _ => True end.

(** The paper on which each distribution is plotted, and its x-axis. *)
Definition own_paper (d : dist) : paper :=
  match d with
  | Weibull _ _ _ => P_Weibull | Normal _ _ | Lognormal _ _ _ => P_Normal | Exponential _ _ => P_Exponential
  | Gamma _ b _ => P_Gamma b | DistModel.Beta a b => P_Beta a b | Loglogistic _ _ _ => P_Loglogistic | Gumbel _ _ => P_Gumbel
  end.
Definition x_axis (d : dist) (x : R) : R :=
  match d with Weibull _ _ g | Lognormal _ _ g | Loglogistic _ _ g => ln (x - g) | _ => x end.

(** The paper a transform's name stands for. *)
Definition named_paper (transform : string) (alpha beta : option R) : option paper :=
  if str_in transform ["normal"; "Normal"; "norm"; "Norm"]%string then Some P_Normal
  else if str_in transform ["gumbel"; "Gumbel"; "gbl"; "gum"; "Gum"; "Gbl"]%string then Some P_Gumbel
  else if str_in transform ["weibull"; "Weibull"; "weib"; "Weib"; "wbl"]%string then Some P_Weibull
  else if str_in transform ["loglogistic"; "Loglogistic"; "LL"; "ll"; "loglog"]%string then Some P_Loglogistic
  else if str_in transform ["exponential"; "Exponential"; "expon"; "Expon"; "exp"; "Exp"]%string then Some P_Exponential
  else if str_in transform ["gamma"; "Gamma"; "gam"; "Gam"]%string then match beta with Some b => Some (P_Gamma b) | None => None end
  else if str_in transform ["beta"; "Beta"]%string then match alpha, beta with Some a, Some b => Some (P_Beta a b) | _, _ => None end
  else None.
(** [l] has the points of the interval [lo, hi] that are equally spaced on the scale [f]. *)
Definition equally_spaced (f : R -> R) (lo hi : R) (l : list R) : Prop :=
  forall i, (i < length l)%nat -> f (nth i l 0) = f lo + INR i / INR (length l - 1) * (f hi - f lo).
Definition strictly_increasing (l : list R) : Prop := forall i j, (i < j < length l)%nat -> nth i l 0 < nth j l 0.

(** Limits of an axis that show all the points. *)
Definition shows (lim : R * R) (l : list R) : Prop := fst lim < snd lim /\ forall v, In v l -> fst lim <= v <= snd lim.
Definition two_values (l : list R) : Prop := exists u v, In u l /\ In v l /\ u < v.

(** The plot of a distribution, the scale of its x-axis, the least and the greatest value of a list, a limit that is a
    share [s] of the range away from it on a scale. *)
Definition plot_of (d : dist) : plot_dist :=
  match d with
  | Weibull _ _ _ => L_weibull | Normal _ _ => L_normal | Lognormal _ _ _ => L_lognormal | Exponential _ _ => L_exponential
  | Gamma _ b _ => L_gamma b | DistModel.Beta a b => L_beta a b | Loglogistic _ _ _ => L_loglogistic | Gumbel _ _ => L_gumbel
  end.
Definition x_scale (d : dist) (x : R) : R := match d with Weibull _ _ _ | Lognormal _ _ _ | Loglogistic _ _ _ => ln x | _ => x end.
Definition least (m : R) (l : list R) : Prop := In m l /\ forall v, In v l -> m <= v.
Definition greatest (m : R) (l : list R) : Prop := In m l /\ forall v, In v l -> v <= m.
Definition margin_below (f : R -> R) (s lo hi lim : R) : Prop := f lim = f lo - s * (f hi - f lo).
Definition margin_above (f : R -> R) (s lo hi lim : R) : Prop := f lim = f hi + s * (f hi - f lo).
