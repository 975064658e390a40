(** Specification vocabulary for the reliability testing functions. *)
From Coquelicot Require Import Coquelicot.
From Coq Require Import List Arith Reals.
From Verif Require Import Base RList.
Import ListNotations.
Open Scope R_scope.

(** Probability of exactly k successes in n independent trials with success probability p. *)
Definition binomial_prob (n : nat) (p : R) (k : nat) : R := C n k * p ^ k * (1 - p) ^ (n - k).
Definition prob_at_least (n : nat) (p : R) (k : nat) : R :=
  rsum (map (binomial_prob n p) (seq k (n + 1 - k))).
Definition prob_at_most (n : nat) (p : R) (k : nat) : R :=
  rsum (map (binomial_prob n p) (seq 0 (k + 1))).

(** Probability of fewer than k events of a Poisson process when the expected number is m. *)
Definition poisson_fewer (k : nat) (m : R) : R :=
  rsum (map (fun j => exp (- m) * m ^ j / INR (fact j)) (seq 0 k)).

(** Log of the likelihood ratio of failure probability p2 to p1 after k failures in n
    samples. *)
Definition log_likelihood_ratio (p1 p2 : R) (n k : nat) : R :=
  INR k * ln (p2 / p1) + INR (n - k) * ln ((1 - p2) / (1 - p1)).

(** Empirical distribution function. *)
Definition ecdf (data : list R) (x : R) : R :=
  INR (length (filter (fun d => if Rle_dec d x then true else false) data)) / INR (length data).

(** One or two sided intervals: the tail probability is (1 - CI) / sides. *)
Definition sides (one_sided : bool) : R := if one_sided then 1 else 2.

(** A datum lies between the first and the last bin edge. *)
Definition in_range (edges : list R) (x : R) : Prop := hd 0 edges <= x <= last edges 0.
