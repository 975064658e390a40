(** Model of the random_samples methods of /repo/reliability/Distributions.py: 1030-1057,
    1957-1982, 2936-2963, 3888-3913, 4878-4905, 5585-5627, 6654-6681, 7583-7608, 8552-8580,
    9550-9578, 10349-10425. *)
From Coquelicot Require Import Coquelicot.
From Coq Require Import List Arith Reals Lra Lia Bool ZArith.
From Verif Require Import Base RealFacts Ext RList DistModel RepairModel CombModel CStatModel.
Import ListNotations.
Open Scope R_scope.

(** The argument number_of_samples: an int, or something whose type is not int (a bool, a
    numpy integer, a float). *)
Inductive count_arg := IsInt (z : Z) | NotInt.

(** if type(number_of_samples) != int or number_of_samples < 1: raise ValueError *)
Definition check_count (n : count_arg) : result nat :=
  match n with IsInt z => if (z <? 1)%Z then Err ValueError else Ok (Z.to_nat z) | NotInt => Err ValueError end.

(** The scipy call made by each class: the standard member of the family with the shape
    parameters passed, loc and scale.
    ss.weibull_min.rvs(beta, scale=alpha, loc=gamma) 1054, ss.norm.rvs(loc=mu, scale=sigma)
    1981, ss.lognorm.rvs(sigma, gamma, exp(mu)) 2960, ss.expon.rvs(scale=1/Lambda, loc=gamma)
    3912, ss.gamma.rvs(beta, scale=alpha, loc=gamma) 4902, ss.beta.rvs(alpha, beta, 0, 1)
    5609, ss.fisk.rvs(beta, scale=alpha, loc=gamma) 6678, ss.gumbel_l.rvs(loc=mu, scale=sigma)
    7607. *)
Definition rvs_call (d : dist) : dist * R * R :=
  match d with
  | Weibull a b g => (Weibull 1 b 0, g, a)
  | Normal m s => (Normal 0 1, m, s)
  | Lognormal m s g => (Lognormal 0 s 0, g, exp m)
  | Exponential l g => (Exponential 1 0, g, 1 / l)
  | Gamma a b g => (Gamma 1 b 0, g, a)
  | DistModel.Beta a b => (DistModel.Beta a b, 0, 1)
  | Loglogistic a b g => (Loglogistic 1 b 0, g, a)
  | Gumbel m s => (Gumbel 0 1, m, s)
  end.

Fixpoint mapM {A B} (f : A -> result B) (l : list A) : result (list B) :=
  match l with [] => Ok [] | x :: r => let! y := f x in let! ys := mapM f r in Ok (y :: ys) end.
Definition belowb (x y : R) : bool := if Rlt_dec x y then true else false.

Section Generator.
  (** numpy's global generator: its states, the state that np.random.seed sets, one number of
      np.random.random_sample, and one value of scipy's rvs for the standard member of a
      family. rvs draws its values one after the other. *)
  Variable G : Type.
  Variable seeded : Z -> G.
  Variable uniform : G -> R * G.
  Variable std_draw : dist -> G -> R * G.

  (** np.random.seed(seed): ValueError unless 0 <= seed < 2^32. *)
  Definition reseed (seed : option Z) (g : G) : result G :=
    match seed with
    | None => Ok g
    | Some s => if (s <? 0)%Z || (4294967295 <? s)%Z then Err ValueError else Ok (seeded s)
    end.

  Fixpoint draws (next : G -> R * G) (n : nat) (g : G) : list R * G :=
    match n with
    | O => ([], g)
    | S n => let '(y, g1) := next g in let '(ys, g2) := draws next n g1 in (y :: ys, g2)
    end.
  (** rv_generic.rvs: vals * scale + loc *)
  Definition rvs (call : dist * R * R) (n : nat) (g : G) : list R * G :=
    let '(s, loc, scale) := call in
    let '(ys, g1) := draws (std_draw s) n g in (map (fun y => y * scale + loc) ys, g1).

  (** The loop of Beta_Distribution.random_samples, 5616-5625; None: more than [fuel] passes. *)
  Fixpoint beta_loop (fuel : nat) (call : dist * R * R) (n : nat) (vals : list R) (g : G) : option (list R * G) :=
    match fuel with
    | O => None
    | S fuel =>
        let vals := filter (fun x => belowb x 1) vals in
        if (length vals <? n)%nat then
          let '(more, g1) := rvs call (n - length vals) g in beta_loop fuel call n (vals ++ more) g1
        else Some (vals, g)
    end.

  (** random_samples of the eight distributions; None: the loop of the Beta distribution has
      not ended after [fuel] passes. *)
  Definition random_samples (fuel : nat) (d : dist) (number : count_arg) (seed : option Z) (g : G) : option (result (list R * G)) :=
    match check_count number with
    | Err e => Some (Err e)
    | Ok n =>
        match reseed seed g with
        | Err e => Some (Err e)
        | Ok g =>
            let '(vals, g1) := rvs (rvs_call d) n g in
            match d with
            | DistModel.Beta _ _ => match beta_loop fuel (rvs_call d) n vals g1 with Some r => Some (Ok r) | None => None end
            | _ => Some (Ok (vals, g1))
            end
        end
    end.

  (** np.cumsum *)
  Fixpoint cumsum (acc : R) (l : list R) : list R := match l with [] => [] | x :: r => (acc + x) :: cumsum (acc + x) r end.
  (** np.random.choice(X, p=w): ValueError for nan or negative probabilities; the cumulative
      probabilities are divided by the last, and X is read at searchsorted(u, side='right'),
      the number of cumulative probabilities not above u. *)
  Definition choice_one (X cum : list R) (u : R) : result R :=
    match nth_error X (length (filter (fun c => negb (belowb u c)) cum)) with Some x => Ok x | None => Err IndexError end.
  Definition choice (X w : list R) (n : nat) (g : G) : result (list R * G) :=
    if existsb (fun p => belowb p 0) w then Err ValueError else
    let c := cumsum 0 w in
    let cum := map (fun v => v / last c 0) c in
    let '(us, g1) := draws uniform n g in
    let! xs := mapM (choice_one X cum) us in Ok (xs, g1).

  (** p = pdf / np.sum(pdf): a sum of zero or an infinite density gives nan, which choice
      refuses. *)
  Definition probabilities (pdf : list ext) : result (list R) :=
    match all_finite pdf with
    | None => Err ValueError
    | Some p => if Req_EM_T (rsum p) 0 then Err ValueError else Ok (map (fun v => v / rsum p) p)
    end.
  Definition table_samples (X : list R) (pdf : list ext) (number : count_arg) (seed : option Z) (g : G) : result (list R * G) :=
    let! n := check_count number in
    let! g := reseed seed g in
    let! w := probabilities pdf in
    choice X w n g.
  (** Competing_Risks_Model.random_samples 8572-8580; the table is made by __init__. *)
  Definition cr_random_samples (ds : list dist) (number : count_arg) (seed : option Z) (g : G) : result (list R * G) :=
    let X := comb_grid ds in let! o := cr_combine ds X in table_samples X (map Fin (cr_pdf o)) number seed g.
  (** Mixture_Model.random_samples 9570-9578 *)
  Definition mix_random_samples (ds : list dist) (ps : list R) (number : count_arg) (seed : option Z) (g : G) : result (list R * G) :=
    let X := comb_grid ds in let! o := mix_combine ds ps X in table_samples X (mix_pdf o) number seed g.

  (** np.random.choice([0, 1, 2], p=[ZI, DS - ZI, 1 - DS]) from one uniform number: the
      cumulative probabilities are ZI, DS and 1. *)
  Definition class_of (DS ZI u : R) : draw := if Rlt_dec u ZI then DrawZero else if Rlt_dec u DS then DrawFailure else DrawSurvivor.
  (** DSZI_Model.random_samples 10382-10425. The base distribution is called with the same
      seed, which seeds the generator again: 10404. *)
  Definition dszi_samples (fuel : nat) (base : dist) (DS ZI : R) (number : count_arg) (rct : option R) (seed : option Z) (g : G) :
      option (result (list R * list R)) :=
    match (match rct with None => if Rlt_dec DS 1 then Err ValueError else Ok 1 | Some t => Ok t end) with
    | Err e => Some (Err e)
    | Ok t =>
        match check_count number with
        | Err e => Some (Err e)
        | Ok n =>
            match reseed seed g with
            | Err e => Some (Err e)
            | Ok g =>
                let '(us, g1) := draws uniform n g in
                let classes := map (class_of DS ZI) us in
                match random_samples fuel base (IsInt (Z.of_nat (count DrawFailure classes))) seed g1 with
                | None => None
                | Some (Err e) => Some (Err e)
                | Some (Ok (f, _)) => Some (dszi_random_samples DS ZI (Z.of_nat n) rct classes (fun _ => f))
                end
            end
        end
    end.
End Generator.
