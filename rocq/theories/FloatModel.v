(** The recurrences of the nonparametric estimators in double precision arithmetic: the
    loops of KaplanMeier and NelsonAalen (reliability/Nonparametric.py:150-187, 475-510),
    of MCF_nonparametric (reliability/Repairable_systems.py:901-971) and of
    plotting_positions (reliability/Probability_plotting.py:119-152).

    Elsewhere in the model floats are idealised as reals.  Here each arithmetic operation of
    the code is followed by [rnd], the rounding of IEEE 754 binary64 to nearest, ties to
    even, with gradual underflow (Flocq's [round]).  Overflow is not modelled; all values
    are proved to be below it.  Integers are exact until they meet a float, where they are
    converted with [rnd].

    sum() over numpy floats adds from left to right: the compensated summation of newer
    Python releases applies to exact floats only, not to the subclass numpy.float64. *)
From Flocq Require Import Core.
From Coq Require Import List Arith Reals Bool.
From Verif Require Import Base.
Import ListNotations.
Open Scope R_scope.

Definition rnd (x : R) : R := round radix2 (FLT_exp (-1074) 53) ZnearestE x.

Definition fadd (x y : R) : R := rnd (x + y).
Definition fsub (x y : R) : R := rnd (x - y).
Definition fmul (x y : R) : R := rnd (x * y).
Definition fdiv (x y : R) : R := rnd (x / y).
Definition float_of (n : nat) : R := rnd (INR n).
Definition float_code (c : bool) : R := if c then 1 else 0.

(** Nonparametric.py:162-170: the list KM.  [prev] is KM[i - 2], absent in the first
    round; remaining_array[i - 1] is the number of rows from this one on. *)
Fixpoint fkm_loop (prev : option R) (codes : list bool) : list R :=
  match codes with
  | [] => []
  | c :: rest =>
      let remaining := float_of (S (length rest)) in
      let ratio := fdiv (fsub remaining (float_code c)) remaining in
      let km := match prev with None => ratio | Some p => fmul ratio p end in
      km :: fkm_loop (Some km) rest
  end.
Definition fkm (codes : list bool) : list R := fkm_loop None codes.

(** Nonparametric.py:181-187: the bounds for an estimate and the half width [delta]. *)
Definition fkm_upper (km delta : R) : R := let x := fadd km delta in if Rlt_dec 1 x then 1 else x.
Definition fkm_lower (km delta : R) : R := let x := fsub km delta in if Rlt_dec x 0 then 0 else x.

(** sum(h): 0 + h[0] + h[1] + ... from the left. *)
Definition fsum (h : list R) : R := fold_left fadd h 0.

(** Nonparametric.py:488-491: the lists H and NA; [h] is the list h so far, [ex] is np.exp. *)
Fixpoint fna_loop (ex : R -> R) (h : list R) (codes : list bool) : list (R * R) :=
  match codes with
  | [] => []
  | c :: rest =>
      let h := h ++ [fdiv (float_code c) (float_of (S (length rest)))] in
      let H := fsum h in
      (H, ex (- H)) :: fna_loop ex h rest
  end.
Definition fna (ex : R -> R) (codes : list bool) : list (R * R) := fna_loop ex [] codes.

(** Repairable_systems.py:905-971: MCF_array for the sorted states ([true] is "F"), after
    event number i with r systems left and C_seq consecutive ends seen; [None] is "".  The
    variances and bounds are not followed here.  As in RepairModel.mcf_loop a negative list
    index is an IndexError and the first event does not count in C_seq. *)
Fixpoint fmcf_loop (states : list bool) (i r C_seq : nat) (arr : list (option R))
    : result (list (option R)) :=
  match states with
  | [] => Ok arr
  | true :: rest =>
      if (r =? 0)%nat then Err ZeroDivisionError
      else
        let r_inv := fdiv 1 (float_of r) in
        if (i =? 0)%nat then fmcf_loop rest 1 r 0 (arr ++ [Some r_inv])
        else if (i <? C_seq + 1)%nat then Err IndexError
        else match nth_error arr (i - C_seq - 1) with
        | None => Err IndexError
        | Some None => fmcf_loop rest (S i) r 0 (arr ++ [Some r_inv])
        | Some (Some m) => fmcf_loop rest (S i) r 0 (arr ++ [Some (fadd r_inv m)])
        end
  | false :: rest =>
      fmcf_loop rest (S i) (r - 1) (if (i =? 0)%nat then C_seq else S C_seq) (arr ++ [None])
  end.
Definition fmcf (systems : nat) (states : list bool) : result (list (option R)) :=
  fmcf_loop states 0 systems 0 [].

(** Probability_plotting.py:130-134: reverse_i of the failures and the number of censored
    items before the first failure. *)
Fixpoint freverse_i (codes : list bool) : list nat :=
  match codes with
  | [] => []
  | c :: rest => if c then S (length rest) :: freverse_i rest else freverse_i rest
  end.

(** Probability_plotting.py:140-142 and 148-151: the ranks appended after the rank [prev]. *)
Fixpoint frank_loop (n : nat) (prev : R) (rev_i : list nat) : list R :=
  match rev_i with
  | [] => []
  | r :: rest =>
      let rank_increment := fdiv (fsub (float_of (n + 1)) prev) (float_of (1 + r)) in
      let rank := fadd prev rank_increment in
      rank :: frank_loop n rank rest
  end.

(** Probability_plotting.py:136-152: adjusted_rank; IndexError without failures. *)
Definition franks (codes : list bool) : result (list R) :=
  match codes, freverse_i codes with
  | _, [] => Err IndexError
  | true :: _, _ :: rest => Ok (1 :: frank_loop (length codes) 1 rest)
  | _, rev_i => Ok (frank_loop (length codes) 0 rev_i)
  end.

(** Probability_plotting.py:153-155: F.  The divisor n + 1 - 2 * a is zero for n = 1 and
    a = 1 only. *)
Definition fpositions (a : R) (codes : list bool) : result (list R) :=
  let! ranks := franks codes in
  let divisor := fsub (float_of (length codes + 1)) (fmul 2 a) in
  if Req_EM_T divisor 0 then Err ZeroDivisionError
  else Ok (map (fun i => fdiv (fsub i a) divisor) ranks).
