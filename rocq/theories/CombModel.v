(** Model of Competing_Risks_Model, Mixture_Model and DSZI_Model:
    /repo/reliability/Distributions.py 7611-10425. *)
From Coquelicot Require Import Coquelicot.
From Coq Require Import List Arith Reals Lra Lia Bool ZArith.
From Verif Require Import Base RealFacts Ext RList DistModel RepairModel.
Import ListNotations.
Open Scope R_scope.

(** X[X >= 0] and X[X < 0]: 7817-7818, 8804-8805 *)
Definition nonneg_part (X : list R) : list R := filter (fun x => negb (Rltb' x 0)) X.
Definition neg_part (X : list R) : list R := filter (fun x => Rltb' x 0) X.

(** The array of one component: the values of its method at X if it is a Normal or Gumbel
    distribution, otherwise np.hstack of a constant for the negative part and the values at
    the non-negative part: 7824-7836, 8811-8831 *)
Definition component {A} (below : A) (f : dist -> list R -> result (list A)) (X : list R) (d : dist) : result (list A) :=
  if is_signed d then f d X
  else let! ys := f d (nonneg_part X) in Ok (repeat below (length (neg_part X)) ++ ys).

Fixpoint zip {A B C} (f : A -> B -> C) (l : list A) (m : list B) : list C :=
  match l, m with x :: l, y :: m => f x y :: zip f l m | _, _ => [] end.

(** Accumulating over the components: 7822-7836, 8808-8831 *)
Fixpoint accumulate {A} (op : A -> A -> A) (get : dist -> result (list A)) (ds : list dist) (acc : list A) : result (list A) :=
  match ds with
  | [] => Ok acc
  | d :: ds => let! ys := get d in accumulate op get ds (zip op acc ys)
  end.

(** The check on xvals: 7812-7815, 8799-8802. min of an empty array raises ValueError. *)
Definition comb_check (ds : list dist) (X : list R) : result unit :=
  match X with
  | [] => Err ValueError
  | _ => if existsb (fun x => Rltb' x 0) X && negb (existsb is_signed ds) then Err ValueError else Ok tt
  end.

(** np.nan_to_num(v, nan=0.0): inf becomes the largest float. *)
Definition max_float : R := (2 - / 2 ^ 52) * 2 ^ 1023.
Definition nan_to_num (v : ext) : R := match v with Fin x => x | PInf => max_float | NaN => 0 end.

(** Competing_Risks_Model.__combiner: 7775-7848. In the code the SF and HF of a component are
    evaluated together; the order in which errors appear is the same. *)
Record cr_out := { cr_pdf : list R; cr_cdf : list R; cr_sf : list R; cr_hf : list ext; cr_chf : list ext }.
Definition cr_combine (ds : list dist) (X : list R) : result cr_out :=
  let! _ := comb_check ds X in
  let! sf := accumulate Rmult (component 1 SF X) ds (map (fun _ => 1) X) in
  let! hf := accumulate eadd (component (Fin 0) HF X) ds (map (fun _ => Fin 0) X) in
  Ok {| cr_pdf := zip (fun s h => nan_to_num (emul (Fin s) h)) sf hf; cr_cdf := map (fun s => 1 - s) sf; cr_sf := sf;
        cr_hf := hf; cr_chf := map neg_log sf |}.

(** p * v for a numpy float p; -inf is not distinguished from nan. *)
Definition weight (p : R) (v : ext) : ext :=
  match v with Fin x => Fin (x * p) | PInf => if Rlt_dec 0 p then PInf else NaN | NaN => NaN end.

(** Mixture_Model.__init__, the checks on proportions: 8672-8683. [None]: not given. *)
Definition mix_proportions (ds : list dist) (ps : option (list R)) : result (list R) :=
  match ps with
  | None => Ok (map (fun _ => 1 / INR (length ds)) ds)
  | Some ps => if Req_EM_T (rsum ps) 1 then (if Nat.eqb (length ps) (length ds) then Ok ps else Err ValueError) else Err ValueError
  end.

Fixpoint accumulate_weighted {A} (op : A -> A -> A) (scale : R -> A -> A) (get : dist -> result (list A)) (ds : list dist) (ps : list R) (acc : list A) : result (list A) :=
  match ds, ps with
  | [], _ => Ok acc
  | d :: ds, p :: ps => let! ys := get d in accumulate_weighted op scale get ds ps (zip (fun a y => op a (scale p y)) acc ys)
  | _ :: _, [] => Err IndexError
  end.

(** Mixture_Model.__combiner: 8762-8842. The zeros that stand for the negative part are
    not multiplied by the proportion in the code; the product is zero all the same. *)
Record mix_out := { mix_pdf : list ext; mix_cdf : list R; mix_sf : list R; mix_hf : list ext; mix_chf : list ext }.
Definition mix_combine (ds : list dist) (ps : list R) (X : list R) : result mix_out :=
  let! _ := comb_check ds X in
  let! cdf := accumulate_weighted Rplus (fun p y => y * p) (component 0 CDF X) ds ps (map (fun _ => 0) X) in
  let! pdf := accumulate_weighted eadd weight (component (Fin 0) PDF X) ds ps (map (fun _ => Fin 0) X) in
  Ok {| mix_pdf := pdf; mix_cdf := cdf; mix_sf := map (fun c => 1 - c) cdf;
        mix_hf := zip (fun p c => ediv p (Fin (1 - c))) pdf cdf; mix_chf := map (fun c => neg_log (1 - c)) cdf |}.

(** ** DSZI_Model *)

(** __init__, the checks on DS and ZI: 9638-9657. [None]: not given. *)
Definition dszi_init (DS ZI : option R) : result (R * R) :=
  match DS, ZI with
  | None, None => Err ValueError
  | _, _ =>
    let ds := match DS with None => 1 | Some v => v end in
    let zi := match ZI with None => 0 | Some v => v end in
    if Rlt_dec ds zi then Err ValueError
    else if Rle_dec 1 zi then Err ValueError else if Rlt_dec zi 0 then Err ValueError
    else if Rlt_dec 1 ds then Err ValueError else if Rle_dec ds 0 then Err ValueError
    else Ok (ds, zi)
  end.

(** PDF, CDF, SF, HF and CHF: 9747-9753, 9908-9910, 9980-9982, 10054-10057, 10127-10132, 10202-10205, from the arrays of the base
    distribution. weight is pdf0 * (DS - ZI). *)
Definition dszi_cdf (DS ZI : R) (d : dist) (x : R) : R := cdf d x * (DS - ZI) + ZI.
Definition dszi_pdf (DS ZI : R) (d : dist) (x : R) : ext := weight (DS - ZI) (pdf d x).
Definition dszi_PDF (DS ZI : R) (d : dist) (X : list R) : result (list ext) := let! p := PDF d X in Ok (map (weight (DS - ZI)) p).
Definition dszi_CDF (DS ZI : R) (d : dist) (X : list R) : result (list R) := let! c := CDF d X in Ok (map (fun c => c * (DS - ZI) + ZI) c).
Definition dszi_SF (DS ZI : R) (d : dist) (X : list R) : result (list R) := let! c := dszi_CDF DS ZI d X in Ok (map (fun c => 1 - c) c).
Definition dszi_HF (DS ZI : R) (d : dist) (X : list R) : result (list ext) :=
  let! p := dszi_PDF DS ZI d X in let! s := dszi_SF DS ZI d X in Ok (zip (fun p s => ediv p (Fin s)) p s).
Definition dszi_CHF (DS ZI : R) (d : dist) (X : list R) : result (list ext) := let! s := dszi_SF DS ZI d X in Ok (map neg_log s).

(** self.median, self.mode: copied from the base distribution, 9680-9681 *)
Definition dszi_median (d : dist) : R := median d.

(** mean_residual_life: 10296-10321, relative to the method of the base distribution.
    [PInf] is np.inf. *)
Definition dszi_mrl (DS : R) (base_mrl : R -> R) (t : R) : ext := if Rlt_dec DS 1 then PInf else Fin (base_mrl t).

(** ** Quantiles from a table *)

(** np.interp(q, xp, fp) for a non-decreasing xp of the same length. *)
Fixpoint interp (q : R) (xp fp : list R) : R :=
  match xp, fp with
  | x0 :: ((x1 :: _) as xs), y0 :: ((y1 :: _) as ys) =>
      if Rlt_dec q x0 then y0 else if Rlt_dec q x1 then (y1 - y0) / (x1 - x0) * (q - x0) + y0 else interp q xs ys
  | _, y0 :: _ => y0
  | _, [] => 0
  end.

(** The grid of 1000000 points: 7730, 8715, 9704. *)
Definition table_grid (xmin xmax : R) : list R := linspace xmin xmax (N.to_nat 1000000).
Definition tiny : R := / 10 ^ 10.
Definition comb_grid (ds : list dist) : list R :=
  table_grid (fold_left Rmin (map (fun d => ppf d tiny) ds) (10 ^ 100)) (fold_left Rmax (map (fun d => ppf d (1 - tiny)) ds) (- 10 ^ 100)).

(** quantile and inverse_SF of the competing risks and mixture models: 8412-8464, 9402-9456 *)
Definition table_quantile (X C : list R) (q : R) : result R :=
  if Rlt_dec q 0 then Err ValueError else if Rlt_dec 1 q then Err ValueError else Ok (interp q C X).
Definition table_inverse_SF (X C : list R) (q : R) : result R :=
  if Rlt_dec q 0 then Err ValueError else if Rlt_dec 1 q then Err ValueError else Ok (interp (1 - q) C X).

Definition cr_quantile (ds : list dist) (q : R) : result R :=
  let X := comb_grid ds in let! o := cr_combine ds X in table_quantile X (cr_cdf o) q.
Definition mix_quantile (ds : list dist) (ps : list R) (q : R) : result R :=
  let X := comb_grid ds in let! o := mix_combine ds ps X in table_quantile X (mix_cdf o) q.

Definition cr_inverse_SF (ds : list dist) (q : R) : result R :=
  let X := comb_grid ds in let! o := cr_combine ds X in table_inverse_SF X (cr_cdf o) q.
Definition mix_inverse_SF (ds : list dist) (ps : list R) (q : R) : result R :=
  let X := comb_grid ds in let! o := mix_combine ds ps X in table_inverse_SF X (mix_cdf o) q.

(** DSZI: quantile on a number and on a list, inverse_SF: 10230-10294 *)
Definition dszi_grid (d : dist) : list R := table_grid (ppf d tiny) (ppf d (1 - tiny)).
Definition dszi_quantile (DS ZI : R) (d : dist) (q : R) : result R :=
  if Rlt_dec q ZI then Err ValueError else if Rlt_dec DS q then Err ValueError
  else let! C := dszi_CDF DS ZI d (dszi_grid d) in Ok (interp q C (dszi_grid d)).
Definition dszi_quantile_list (DS ZI : R) (d : dist) (qs : list R) : result (list R) :=
  match qs with
  | [] => Err ValueError
  | _ => if existsb (fun v => Rltb' v 0) qs || existsb (fun v => Rltb' 1 v) qs then Err ValueError
    else let! C := dszi_CDF DS ZI d (dszi_grid d) in Ok (map (fun q => interp q C (dszi_grid d)) qs)
  end.
Definition dszi_inverse_SF (DS ZI : R) (d : dist) (q : R) : result R :=
  if Rlt_dec q 0 then Err ValueError else if Rlt_dec 1 q then Err ValueError
  else let! C := dszi_CDF DS ZI d (dszi_grid d) in Ok (interp (1 - q) C (dszi_grid d)).

(** The statistics read off the table: X[argmin(abs(cdf - p))], 7770-7773, 8757-8760,
    9712-9713. *)
Definition table_stat (X C : list R) (p : R) : result R :=
  let! i := argmin (map (fun c => Rabs (c - p)) C) in
  match nth_error X i with Some x => Ok x | None => Err IndexError end.

(** ** DSZI random_samples: 10349-10425 *)

(** The draws np.random.choice([0, 1, 2], p=[ZI, DS - ZI, 1 - DS]) can make. *)
Inductive draw := DrawZero | DrawFailure | DrawSurvivor.
Definition draw_eqb (a b : draw) : bool :=
  match a, b with DrawZero, DrawZero | DrawFailure, DrawFailure | DrawSurvivor, DrawSurvivor => true | _, _ => false end.
Definition possible (DS ZI : R) (w : draw) : Prop :=
  match w with DrawZero => 0 < ZI | DrawFailure => ZI < DS | DrawSurvivor => DS < 1 end.
Definition count (w : draw) (draws : list draw) : nat := length (filter (draw_eqb w) draws).

(** base.random_samples(n): ValueError for n < 1, otherwise n values (an oracle). *)
Definition base_samples (oracle : nat -> list R) (n : nat) : result (list R) :=
  match n with O => Err ValueError | _ => Ok (oracle n) end.

Definition dszi_random_samples (DS ZI : R) (number : Z) (rct : option R) (draws : list draw) (oracle : nat -> list R) : result (list R * list R) :=
  let! t := match rct with None => if Rlt_dec DS 1 then Err ValueError else Ok 1 | Some t => Ok t end in
  if (number <? 1)%Z then Err ValueError else
  let! f := base_samples oracle (count DrawFailure draws) in
  let failures := repeat 0 (count DrawZero draws) ++ f in
  let censored := repeat t (count DrawSurvivor draws) in
  let late := filter (fun x => Rltb' t x) failures in
  if (if Rlt_dec DS 1 then true else false) && existsb (fun x => Rltb' t x) failures then
    Ok (filter (fun x => negb (Rltb' t x)) failures, censored ++ repeat t (length late))
  else Ok (failures, censored).
