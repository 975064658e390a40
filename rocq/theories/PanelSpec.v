(** What the statistics of a distribution are, and when a text shows one. *)
From Coquelicot Require Import Coquelicot.
From Coq Require Import ZArith Reals.
From Coq Require Import String.
From Coq Require Import List.
From Verif Require Import Base Ext DistModel DistSpec ExpectSpec MomentSpec RoundModel RoundSpec PanelModel.
Open Scope R_scope.

(** Four decimals, or four digits after the first for very small and very large numbers; integers exactly. *)
Definition to_4_decimals (v x : R) : Prop :=
  (integral x -> v = x) /\ (ordinary x -> Rabs (v - x) <= / 10 ^ 4 / 2) /\ (~ ordinary x -> Rabs (v - x) <= Rabs x * / 10 ^ 4 / 2).

(** The statistic characterised by [is]: a number is the statistic, rounded; a message is there only if [missing]. *)
Definition shows (t : panel_text) (is : R -> Prop) (missing : Prop) : Prop :=
  match t with
  | T_number s => exists x v, is x /\ says s = Some v /\ to_4_decimals v x
  | T_message => missing
  end.

Definition is_mean (d : dist) (m : R) : Prop := expectation d (fun x => x) m.
Definition is_median (d : dist) (m : R) : Prop := cdf d m = 1 / 2.
Definition is_mode (d : dist) (m : R) : Prop := forall x, ext_le (pdf d x) (pdf d m).
Definition is_quantile (d : dist) (q t : R) : Prop := cdf d t = q.
Definition is_variance (d : dist) (v : R) : Prop := exists m, is_mean d m /\ expectation d (fun x => (x - m) ^ 2) v.
Definition is_sd (d : dist) (s : R) : Prop := 0 < s /\ is_variance d (s ^ 2).
Definition is_skewness (d : dist) (k : R) : Prop := exists m s, is_mean d m /\ is_sd d s /\ expectation d (fun x => ((x - m) / s) ^ 3) k.
Definition is_excess (d : dist) (k : R) : Prop := exists m s, is_mean d m /\ is_sd d s /\ expectation d (fun x => ((x - m) / s) ^ 4) (k + 3).
(** No moment of this order exists, about any centre. *)
Definition no_moment (d : dist) (n : nat) : Prop := forall c v, ~ expectation d (fun x => (x - c) ^ n) v.
