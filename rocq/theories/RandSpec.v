(** Specifications for random samples. *)
From Coquelicot Require Import Coquelicot.
From Coq Require Import List Arith Reals Lra Lia Bool ZArith.
From Verif Require Import Base RealFacts Ext RList DistModel.
Import ListNotations.
Open Scope R_scope.

(** A source [next] of random numbers turns the state of the generator into a number and the
    next state. The state after i numbers, and the number after those. *)
Fixpoint after {G} (next : G -> R * G) (i : nat) (g : G) : G := match i with O => g | S i => after next i (snd (next g)) end.
Definition number {G} (next : G -> R * G) (g : G) (i : nat) : R := fst (next (after next i g)).
Definition first_numbers {G} (next : G -> R * G) (g : G) (n : nat) : list R := map (number next g) (seq 0 n).

(** Arguments that random_samples accepts: the number of samples as an int of at least one,
    and no seed or a seed from 0 to 2^32 - 1. The state that a call starts from. *)
Definition good_seed (seed : option Z) : Prop := match seed with None => True | Some s => (0 <= s < 2 ^ 32)%Z end.
Definition start {G} (seeded : Z -> G) (seed : option Z) (g : G) : G := match seed with None => g | Some s => seeded s end.

(** The member of the family with the same shape, location 0 and scale 1. *)
Definition standard (d : dist) : dist :=
  match d with
  | Weibull _ b _ => Weibull 1 b 0 | Normal _ _ => Normal 0 1 | Lognormal _ s _ => Lognormal 0 s 0 | Exponential _ _ => Exponential 1 0
  | Gamma _ b _ => Gamma 1 b 0 | Beta a b => Beta a b | Loglogistic _ b _ => Loglogistic 1 b 0 | Gumbel _ _ => Gumbel 0 1
  end.
Definition is_beta (d : dist) : Prop := match d with Beta _ _ => True | _ => False end.

(** The equally spaced points of the table of a combined model, and the share of the sum of
    the densities that lies at points up to x. *)
Definition points (lo hi : R) : list R := map (fun i => lo + INR i * ((hi - lo) / 999999)) (seq 0 (N.to_nat 1000000)).
Definition share (f : R -> R) (lo hi x : R) : R :=
  rsum (map f (filter (fun y => if Rle_dec y x then true else false) (points lo hi))) / rsum (map f (points lo hi)).

(** The samples xs are made from the uniform numbers us by inverting that share. *)
Definition follows_table (f : R -> R) (lo hi : R) (us xs : list R) : Prop :=
  length xs = length us /\
  forall i, (i < length us)%nat -> In (nth i xs 0) (points lo hi) /\ forall x, nth i xs 0 <= x <-> nth i us 0 < share f lo hi x.
