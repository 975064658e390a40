(** What someone in front of the explorer sees, and what they expect to see. *)
From Coq Require Import Reals.
From Coq Require Import String.
From Coq Require Import List.
From Verif Require Import Base Ext DistModel InputModel AxesModel RoundModel ExploreModel.
Import ListNotations.
Open Scope R_scope.

(** The visible sliders, by label: their values. *)
Definition dials (e : explorer) : list (string * R) :=
  map (fun s => (l_label s, l_val s)) ([e_s0 e; e_s1 e] ++ if e_ax2 e then [e_s2 e] else []).
(** A distribution as a name and its parameters by name, in the order of its arguments. *)
Definition by_name (d : dist) : string * list (string * R) :=
  match d with
  | Weibull a b g => ("Weibull", [("Alpha", a); ("Beta", b); ("Gamma", g)])
  | Gamma a b g => ("Gamma", [("Alpha", a); ("Beta", b); ("Gamma", g)])
  | Loglogistic a b g => ("Loglogistic", [("Alpha", a); ("Beta", b); ("Gamma", g)])
  | Lognormal m s g => ("Lognormal", [("Mu", m); ("Sigma", s); ("Gamma", g)])
  | Exponential l g => ("Exponential", [("Lambda", l); ("Gamma", g)])
  | DistModel.Beta a b => ("Beta", [("Alpha", a); ("Beta", b)])
  | Normal m s => ("Normal", [("Mu", m); ("Sigma", s)])
  | Gumbel m s => ("Gumbel", [("Mu", m); ("Sigma", s)])
  end%string.
(** The five panels. *)
Definition panels (e : explorer) : list (list (func * dist)) := [e_pdf e; e_cdf e; e_sf e; e_hf e; e_chf e].
(** All that can be seen and moved. *)
Record sight := mkSight { v_name : string; v_dials : list (string * R); v_ranges : list (R * R); v_panels : list (list (func * dist)); v_title : string * list (string * shown) }.
Definition look (e : explorer) : sight :=
  mkSight (e_name e) (dials e) (map (fun s => (l_lo s, l_hi s)) ([e_s0 e; e_s1 e] ++ if e_ax2 e then [e_s2 e] else [])) (panels e) (e_title e).
(** The distribution each button starts with. *)
Definition initial (name : string) : option dist :=
  match (find (fun p => String.eqb (fst p) name)
    [ ("Weibull", Weibull 100 2 0); ("Gamma", Gamma 100 5 0); ("Normal", Normal 0 10); ("Lognormal", Lognormal (5 / 2) (1 / 2) 0);
      ("Beta", DistModel.Beta 2 2); ("Exponential", Exponential 1 0); ("Loglogistic", Loglogistic 100 8 0); ("Gumbel", Gumbel 0 10) ]%string) with
  | Some (_, d) => Some d
  | None => None
  end.
(** The ranges of its sliders. *)
Definition ranges (d : dist) : list (R * R) :=
  match d with
  | Weibull _ _ _ | Gamma _ _ _ => [(1 / 10, 500); (2 / 10, 25); (0, 500)]
  | Loglogistic _ _ _ => [(1 / 10, 500); (2 / 10, 50); (0, 500)]
  | Lognormal _ _ _ => [(0, 5); (1 / 100, 2); (0, 500)]
  | Normal _ _ | Gumbel _ _ => [(-100, 100); (1 / 100, 20)]
  | Exponential _ _ => [(1 / 1000, 5); (0, 500)]
  | DistModel.Beta _ _ => [(1 / 100, 5); (1 / 100, 5)]
  end.
(** Distribution [d] is what the explorer shows: in its name, its dials, all five panels, and the title. *)
Definition shows (e : explorer) (d : dist) : Prop :=
  by_name d = (e_name e, dials e) /\
  panels e = [[(F_pdf, d)]; [(F_cdf, d)]; [(F_sf, d)]; [(F_hf, d)]; [(F_chf, d)]] /\
  e_title e = (e_name e, param_title d).
