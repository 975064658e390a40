(** Straight line fitting by least squares. *)
From Coq Require Import List Arith Reals Lra Lia.
From Verif Require Import Base RList.
Import ListNotations.
Open Scope R_scope.

Notation point := (R * R)%type (only parsing).

Definition mean (l : list R) : R := rsum l / INR (length l).

(** Sum of squared vertical distances of the points from the line y = m x + c. *)
Definition sse (pts : list point) (m c : R) : R :=
  rsum (map (fun p => (snd p - (m * fst p + c)) ^ 2) pts).

Definition Sxx (pts : list point) : R :=
  let xm := mean (map fst pts) in rsum (map (fun p => (fst p - xm) ^ 2) pts).
Definition Sxy (pts : list point) : R :=
  let xm := mean (map fst pts) in let ym := mean (map snd pts) in
  rsum (map (fun p => (fst p - xm) * (snd p - ym)) pts).
Definition Syy (pts : list point) : R :=
  let ym := mean (map snd pts) in rsum (map (fun p => (snd p - ym) ^ 2) pts).

Lemma sse_quadratic pts m c :
  sse pts m c = rsum (map (fun p => snd p ^ 2) pts) + m ^ 2 * rsum (map (fun p => fst p ^ 2) pts)
    + INR (length pts) * c ^ 2 - 2 * m * rsum (map (fun p => fst p * snd p) pts)
    - 2 * c * rsum (map snd pts) + 2 * m * c * rsum (map fst pts).
Proof.
  unfold sse. induction pts as [|[x y] pts IH]; [cbn; ring|].
  cbn [map fst snd]. rewrite !rsum_cons. cbn [length]. rewrite S_INR. rewrite IH. ring.
Qed.

Lemma Sxx_eq pts : pts <> [] -> Sxx pts = rsum (map (fun p => fst p ^ 2) pts) - (rsum (map fst pts)) ^ 2 / INR (length pts).
Proof.
  intros Hne. assert (INR (length pts) <> 0) as Hn by (destruct pts; [congruence|apply not_0_INR; discriminate]).
  unfold Sxx, mean. rewrite map_length. set (xm := rsum (map fst pts) / INR (length pts)).
  assert (forall l : list point, rsum (map (fun p => (fst p - xm) ^ 2) l) =
    rsum (map (fun p => fst p ^ 2) l) - 2 * xm * rsum (map fst l) + INR (length l) * xm ^ 2) as E.
  { induction l as [|[x y] l IH]; [cbn; ring|]. cbn [map fst]. rewrite !rsum_cons. cbn [length]. rewrite S_INR, IH. ring. }
  rewrite E. unfold xm. field. exact Hn.
Qed.
Lemma Sxy_eq pts : pts <> [] -> Sxy pts = rsum (map (fun p => fst p * snd p) pts) - rsum (map fst pts) * rsum (map snd pts) / INR (length pts).
Proof.
  intros Hne. assert (INR (length pts) <> 0) as Hn by (destruct pts; [congruence|apply not_0_INR; discriminate]).
  unfold Sxy, mean. rewrite !map_length. set (xm := rsum (map fst pts) / INR (length pts)). set (ym := rsum (map snd pts) / INR (length pts)).
  assert (forall l : list point, rsum (map (fun p => (fst p - xm) * (snd p - ym)) l) =
    rsum (map (fun p => fst p * snd p) l) - ym * rsum (map fst l) - xm * rsum (map snd l) + INR (length l) * (xm * ym)) as E.
  { induction l as [|[x y] l IH]; [cbn; ring|]. cbn [map fst snd]. rewrite !rsum_cons. cbn [length]. rewrite S_INR, IH. ring. }
  rewrite E. unfold xm, ym. field. exact Hn.
Qed.

Lemma rsum_sq_zero (f : point -> R) pts : rsum (map (fun p => f p ^ 2) pts) = 0 -> forall p, In p pts -> f p = 0.
Proof.
  intros H p Hp.
  assert (Forall (fun x => 0 <= x) (map (fun p => f p ^ 2) pts)) as HF.
  { apply Forall_forall. intros x Hx. apply in_map_iff in Hx. destruct Hx as (q & <- & _). apply pow2_ge_0. }
  apply rsum_zero_nonneg in H; [|exact HF]. rewrite Forall_forall in H.
  specialize (H (f p ^ 2) (in_map (fun p => f p ^ 2) _ _ Hp)). simpl in H. nra.
Qed.
Lemma rsum_sq_nonneg (f : point -> R) pts : 0 <= rsum (map (fun p => f p ^ 2) pts).
Proof. apply rsum_nonneg, Forall_forall. intros x Hx. apply in_map_iff in Hx. destruct Hx as (q & <- & _). apply pow2_ge_0. Qed.

Lemma Sxx_nonneg pts : 0 <= Sxx pts.
Proof. unfold Sxx. apply (rsum_sq_nonneg (fun p => fst p - mean (map fst pts))). Qed.

(** Sxx vanishes iff all abscissae agree. *)
Lemma Sxx_zero pts : Sxx pts = 0 <-> (forall p q, In p pts -> In q pts -> fst p = fst q).
Proof.
  split.
  - intros H p q Hp Hq. pose proof (rsum_sq_zero (fun p => fst p - mean (map fst pts)) pts H) as Z.
    pose proof (Z p Hp). pose proof (Z q Hq). simpl in *. lra.
  - intros H. destruct pts as [|p0 pts]; [reflexivity|]. set (l := p0 :: pts) in *.
    assert (forall p, In p l -> fst p = fst p0) as Hc by (intros p Hp; apply H; [exact Hp|now left]).
    assert (mean (map fst l) = fst p0) as Em.
    { unfold mean. rewrite (rsum_ext _ (fun _ => fst p0)) by exact Hc. rewrite rsum_const, map_length. field.
      apply not_0_INR. discriminate. }
    unfold Sxx. rewrite Em. rewrite (rsum_ext _ (fun _ => 0)).
    + rewrite rsum_const. ring.
    + intros p Hp. rewrite (Hc p Hp). ring.
Qed.

Definition lsq_slope (pts : list point) : R := Sxy pts / Sxx pts.
Definition lsq_intercept (pts : list point) : R := mean (map snd pts) - lsq_slope pts * mean (map fst pts).

(** Distance from the optimum in closed form. *)
Lemma sse_diff pts m c : Sxx pts <> 0 ->
  sse pts m c = sse pts (lsq_slope pts) (lsq_intercept pts) + (m - lsq_slope pts) ^ 2 * Sxx pts
    + INR (length pts) * ((c - lsq_intercept pts) + (m - lsq_slope pts) * mean (map fst pts)) ^ 2.
Proof.
  intros HS. assert (pts <> []) as Hne by (intros ->; apply HS; reflexivity).
  assert (INR (length pts) <> 0) as Hn by (destruct pts; [congruence|apply not_0_INR; discriminate]).
  rewrite !sse_quadratic.
  assert (lsq_slope pts * Sxx pts = Sxy pts) as E1 by (unfold lsq_slope; field; exact HS).
  pose proof (Sxx_eq pts Hne) as E2. pose proof (Sxy_eq pts Hne) as E3.
  unfold lsq_intercept, mean. rewrite !map_length. set (s := lsq_slope pts) in *.
  set (n := INR (length pts)) in *. set (X := rsum (map fst pts)) in *. set (Y := rsum (map snd pts)) in *.
  set (XX := rsum (map (fun p => fst p ^ 2) pts)) in *. set (XY := rsum (map (fun p => fst p * snd p) pts)) in *.
  assert (XX = Sxx pts + X ^ 2 / n) as -> by lra.
  assert (XY = s * Sxx pts + X * Y / n) as -> by lra.
  field. exact Hn.
Qed.

Lemma lsq_optimal pts m c : Sxx pts <> 0 -> sse pts (lsq_slope pts) (lsq_intercept pts) <= sse pts m c.
Proof.
  intros HS. rewrite (sse_diff pts m c HS). pose proof (Sxx_nonneg pts). pose proof (pos_INR (length pts)).
  pose proof (pow2_ge_0 (m - lsq_slope pts)).
  pose proof (pow2_ge_0 ((c - lsq_intercept pts) + (m - lsq_slope pts) * mean (map fst pts))).
  assert (0 <= (m - lsq_slope pts) ^ 2 * Sxx pts) by now apply Rmult_le_pos.
  assert (0 <= INR (length pts) * ((c - lsq_intercept pts) + (m - lsq_slope pts) * mean (map fst pts)) ^ 2) by now apply Rmult_le_pos.
  lra.
Qed.

Lemma lsq_unique pts m c : Sxx pts <> 0 -> sse pts m c <= sse pts (lsq_slope pts) (lsq_intercept pts) ->
  m = lsq_slope pts /\ c = lsq_intercept pts.
Proof.
  intros HS H. rewrite (sse_diff pts m c HS) in H. pose proof (Sxx_nonneg pts).
  assert (0 < INR (length pts)) as Hn by (apply lt_0_INR; destruct pts; [exfalso; apply HS; reflexivity|simpl; lia]).
  pose proof (pow2_ge_0 (m - lsq_slope pts)) as A.
  pose proof (pow2_ge_0 ((c - lsq_intercept pts) + (m - lsq_slope pts) * mean (map fst pts))) as B.
  set (u := (c - lsq_intercept pts) + (m - lsq_slope pts) * mean (map fst pts)) in *.
  assert (0 <= (m - lsq_slope pts) ^ 2 * Sxx pts) by now apply Rmult_le_pos.
  assert (0 <= INR (length pts) * u ^ 2) by (apply Rmult_le_pos; lra).
  assert ((m - lsq_slope pts) ^ 2 * Sxx pts = 0) as E1 by lra. assert (INR (length pts) * u ^ 2 = 0) as E2 by lra.
  apply Rmult_integral in E1. destruct E1 as [E1|E1]; [|lra]. apply Rmult_integral in E2. destruct E2 as [E2|E2]; [lra|].
  assert (m - lsq_slope pts = 0) by nra. assert (u = 0) by nra. unfold u in *. split; [lra|]. nra.
Qed.

(** Points on a line give that line back. *)
Lemma lsq_exact pts m c : Sxx pts <> 0 -> (forall p, In p pts -> snd p = m * fst p + c) ->
  lsq_slope pts = m /\ lsq_intercept pts = c.
Proof.
  intros HS H. destruct (lsq_unique pts m c HS) as [-> ->]; [|auto].
  assert (sse pts m c = 0) as ->.
  { unfold sse. rewrite (rsum_ext _ (fun _ => 0)).
    - rewrite rsum_const. ring.
    - intros p Hp. rewrite (H p Hp). ring. }
  unfold sse. apply (rsum_sq_nonneg (fun p => snd p - (lsq_slope pts * fst p + lsq_intercept pts))).
Qed.
