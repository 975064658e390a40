(** Independent specifications for the physics of failure functions. *)
From Coquelicot Require Import Coquelicot.
From Coq Require Import List Arith Reals Lra Lia.
From Verif Require Import Base RList Linear PoFModel.
Import ListNotations.
Open Scope R_scope.

(** Arrhenius: ratio of the rates exp(-Ea/(k T)) at two absolute temperatures. *)
Definition arrhenius (Ea T_use T_acc : R) : R :=
  exp (- Ea / (boltzmann * (T_acc + 273.15))) / exp (- Ea / (boltzmann * (T_use + 273.15))).

(** Larson-Miller parameter of a life t at temperature T (Fahrenheit). *)
Definition larson_miller (C T t : R) : R := (T + 459.67) * (C + ln t / ln 10).

(** Miner's damage after x repetitions of a load block: each stress level uses its share
    of the rated life. *)
Fixpoint damage (x : R) (block : list (R * R)) : R :=
  match block with [] => 0 | (time, rated) :: r => x * time / rated + damage x r end.

(** Paris law: cycles per metre at crack length a, for stress range S and geometry f. *)
Definition paris (C m S f a : R) : R := 1 / (C * Rpower (f * S * sqrt (PI * a)) m).

(** Textbook confidence band of a regression line of stress on log10 cycles:
    line +- t * s * sqrt (1/n + (u - ubar)^2 / Sum (u_i - ubar)^2), u = log10 cycles. *)
Definition band_halfwidth (pts : list (R * R)) (m c tval u : R) : R :=
  let n := INR (length pts) in
  tval * sqrt (sse pts m c / (n - 2)) * sqrt (1 / n + (u - mean (map fst pts)) ^ 2 / Sxx pts).

(** Data of one temperature. *)
Fixpoint at_temp (T : R) (temps : list R) (data : list (R * R)) : list (R * R) :=
  match temps, data with
  | t :: ts, p :: ps => if Req_EM_T t T then p :: at_temp T ts ps else at_temp T ts ps
  | _, _ => []
  end.

(** Temperatures listed block by block, each temperature in one block. *)
Definition grouped (temps : list R) : Prop :=
  exists blocks : list (R * nat),
    NoDup (map fst blocks) /\ temps = flat_map (fun b => repeat (fst b) (S (snd b))) blocks.

(** The Ramberg-Osgood curve: total strain at a tensile stress. *)
Definition RO (E K n s : R) : R := s / E + Rpower (s / K) (1 / n).

(** A material whose stress-strain points lie on a Ramberg-Osgood curve and whose lives
    follow the Basquin and Coffin-Manson laws. *)
Definition on_RO (E K n : R) (strain stress : list R) : Prop :=
  Forall2 (fun e s => 0 < s /\ e = RO E K n s) strain stress.
Definition on_life (E K n sigma_f b epsilon_f c : R) (cycles stress : list R) : Prop :=
  Forall2 (fun N s => 0 < N /\ s / E = sigma_f / E * Rpower (2 * N) b /\
                      Rpower (s / K) (1 / n) = epsilon_f * Rpower (2 * N) c) cycles stress.
