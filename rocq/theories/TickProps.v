(** Property C160: data values and axes coordinates. *)
From Coquelicot Require Import Coquelicot.
From Coq Require Import ZArith Reals Lra Lia.
From Coq Require Import String.
From Coq Require Import List Bool.
From Verif Require Import Base RealFacts RoundModel RoundSpec RoundProofs TickModel TickSpec.
Import ListNotations.
Local Open Scope string_scope.
Local Open Scope list_scope.
Open Scope R_scope.

Section Axis.
  Variable shows : R -> Prop.
  Variable a : axis.
  Hypothesis D : drawable shows a.

  Definition fraction (v : R) : R := (scale a v - scale a (lim_1 a)) / (scale a (lim_2 a) - scale a (lim_1 a)).

  Lemma scale_ends : scale a (lim_2 a) - scale a (lim_1 a) <> 0.
  Proof.
    intros E. pose proof (d_lims _ _ D) as N. destruct (Rtotal_order (lim_1 a) (lim_2 a)) as [L|[L|L]]; [|contradiction|].
    - pose proof (d_scale _ _ D _ _ (d_lim_1 _ _ D) (d_lim_2 _ _ D) L). lra.
    - pose proof (d_scale _ _ D _ _ (d_lim_2 _ _ D) (d_lim_1 _ _ D) L). lra.
  Qed.

  Lemma forward_fraction v : inv_axes a (trans_data a v) = fraction v.
  Proof. pose proof (d_extent _ _ D). pose proof scale_ends. unfold inv_axes, trans_data, fraction. field. split; lra. Qed.

  Lemma inverse_forward v : shows v -> inv_data a (trans_axes a (inv_axes a (trans_data a v))) = v.
  Proof.
    intros S. rewrite forward_fraction. unfold inv_data, trans_axes. pose proof (d_extent _ _ D). pose proof scale_ends.
    replace (scale a (lim_1 a) + (start a + extent a * fraction v - start a) / extent a * (scale a (lim_2 a) - scale a (lim_1 a))) with (scale a v).
    - now apply (d_back _ _ D).
    - unfold fraction. field. split; lra.
  Qed.

  Lemma between_ends u : 0 <= u <= 1 -> let s := scale a (lim_1 a) + u * (scale a (lim_2 a) - scale a (lim_1 a)) in
    Rmin (scale a (lim_1 a)) (scale a (lim_2 a)) <= s <= Rmax (scale a (lim_1 a)) (scale a (lim_2 a)).
  Proof.
    intros [U0 U1] s. unfold s. set (p := scale a (lim_1 a)). set (q := scale a (lim_2 a)).
    unfold Rmin, Rmax. destruct (Rle_dec p q); nra.
  Qed.

  Lemma forward_inverse u : 0 <= u <= 1 -> inv_axes a (trans_data a (inv_data a (trans_axes a u))) = u /\ shows (inv_data a (trans_axes a u)).
  Proof.
    intros U. rewrite forward_fraction. unfold inv_data, trans_axes. pose proof (d_extent _ _ D). pose proof scale_ends.
    replace ((start a + extent a * u - start a) / extent a) with u by (field; lra).
    destruct (d_onto _ _ D _ (between_ends u U)) as [S E]. unfold fraction. rewrite E. split; [field; lra|exact S].
  Qed.

  Lemma scale_le x y : shows x -> shows y -> (scale a x <= scale a y <-> x <= y).
  Proof.
    intros Sx Sy. split; intros H.
    - apply Rnot_lt_le. intros L. pose proof (d_scale _ _ D _ _ Sy Sx L). lra.
    - destruct H as [H| ->]; [|lra]. pose proof (d_scale _ _ D _ _ Sx Sy H). lra.
  Qed.

  Lemma fraction_ends : fraction (lim_1 a) = 0 /\ fraction (lim_2 a) = 1.
  Proof. pose proof scale_ends. unfold fraction. split; field; lra. Qed.

  Lemma fraction_on v : shows v -> (0 <= fraction v <= 1 <-> on_axis a v).
  Proof.
    intros S. pose proof scale_ends as N. unfold on_axis.
    pose proof (scale_le _ _ (d_lim_1 _ _ D) S) as A1. pose proof (scale_le _ _ S (d_lim_1 _ _ D)) as A2.
    pose proof (scale_le _ _ (d_lim_2 _ _ D) S) as B1. pose proof (scale_le _ _ S (d_lim_2 _ _ D)) as B2.
    pose proof (scale_le _ _ (d_lim_1 _ _ D) (d_lim_2 _ _ D)) as C1.
    assert (fraction v * (scale a (lim_2 a) - scale a (lim_1 a)) = scale a v - scale a (lim_1 a)) as E by (unfold fraction; field; exact N).
    set (f := fraction v) in *. set (p := scale a (lim_1 a)) in *. set (q := scale a (lim_2 a)) in *. set (s := scale a v) in *.
    destruct (Rle_lt_dec (lim_1 a) (lim_2 a)) as [L|L].
    - rewrite Rmin_left, Rmax_right by exact L. rewrite <- A1, <- B2. apply C1 in L. split; intros K; nra.
    - rewrite Rmin_right, Rmax_left by lra. rewrite <- B1, <- A2. assert (q < p) as QP by (apply Rnot_le_lt; intros K; apply C1 in K; lra). split; intros J; nra.
  Qed.
End Axis.

(** A number on the axis "x" or "y" becomes its position from 0 at the first limit to 1 at the second, which is between 0 and 1
    exactly if the number is within the limits. *)
Theorem C160_forward_partial shows ax name v direction : drawable shows (the_axis ax name) -> In name ["x"; "y"] -> In direction ["forward"; "fwd"] -> shows v ->
  exists u, xy_transform ax (V_num v) direction name = Ok (T_num u) /\
    (0 <= u <= 1 <-> on_axis (the_axis ax name) v) /\ (v = lim_1 (the_axis ax name) -> u = 0) /\ (v = lim_2 (the_axis ax name) -> u = 1) /\
    (forall w u', shows w -> xy_transform ax (V_num w) direction name = Ok (T_num u') ->
       lim_1 (the_axis ax name) < lim_2 (the_axis ax name) -> v < w -> u < u').
Proof.
  intros D Hn Hd S.
  assert (forall w, xy_transform ax (V_num w) direction name = Ok (T_num (fraction (the_axis ax name) w))) as E.
  { intros w. rewrite <- (forward_fraction shows _ D). unfold xy_transform, the_axis. destruct Hd as [<-|[<-|[]]]; destruct Hn as [<-|[<-|[]]]; reflexivity. }
  exists (fraction (the_axis ax name) v). rewrite E. set (a := the_axis ax name) in *.
  split; [reflexivity|]. split; [now apply fraction_on with shows|]. destruct (fraction_ends shows a D) as [F0 F1].
  split; [intros ->; exact F0|]. split; [intros ->; exact F1|].
  intros w u' Sw Ew L Hvw. rewrite E in Ew. assert (u' = fraction a w) as -> by congruence. unfold fraction.
  pose proof (d_scale _ _ D _ _ (d_lim_1 _ _ D) (d_lim_2 _ _ D) L) as L'. pose proof (d_scale _ _ D _ _ S Sw Hvw) as H.
  unfold Rdiv. apply Rmult_lt_compat_r; [apply Rinv_0_lt_compat; lra|lra].
Qed.
Print Assumptions C160_forward_partial.

(** "reverse" undoes "forward" and the other way round. *)
Theorem C160_round_trip_partial shows ax name fwd rev : drawable shows (the_axis ax name) -> In name ["x"; "y"] ->
  In fwd ["forward"; "fwd"] -> In rev ["reverse"; "inverse"; "inv"; "rev"] ->
  (forall v, shows v -> exists u, xy_transform ax (V_num v) fwd name = Ok (T_num u) /\ xy_transform ax (V_num u) rev name = Ok (T_num v)) /\
  (forall u, 0 <= u <= 1 -> exists v, xy_transform ax (V_num u) rev name = Ok (T_num v) /\ xy_transform ax (V_num v) fwd name = Ok (T_num u)).
Proof.
  intros D Hn Hf Hr. set (a := the_axis ax name) in *.
  assert (forall w, xy_transform ax (V_num w) fwd name = Ok (T_num (inv_axes a (trans_data a w)))) as EF.
  { intros w. unfold xy_transform, a, the_axis. destruct Hf as [<-|[<-|[]]]; destruct Hn as [<-|[<-|[]]]; reflexivity. }
  assert (forall w, xy_transform ax (V_num w) rev name = Ok (T_num (inv_data a (trans_axes a w)))) as ER.
  { intros w. unfold xy_transform, a, the_axis. destruct Hr as [<-|[<-|[<-|[<-|[]]]]]; destruct Hn as [<-|[<-|[]]]; reflexivity. }
  split.
  - intros v S. eexists. split; [apply EF|]. rewrite ER. do 2 f_equal. now apply inverse_forward with shows.
  - intros u U. eexists. split; [apply ER|]. rewrite EF. do 2 f_equal. now apply (forward_inverse shows a D).
Qed.
Print Assumptions C160_round_trip_partial.

(** A list is transformed item by item, except forward on the y axis. *)
Theorem C160_lists_partial ax name direction l : In name ["x"; "y"] -> In direction ["reverse"; "inverse"; "inv"; "rev"] \/ (In direction ["forward"; "fwd"] /\ name = "x") ->
  exists l', xy_transform ax (V_seq l) direction name = Ok (T_seq l') /\ length l' = length l /\
    forall i v, nth_error l i = Some v -> exists u, nth_error l' i = Some u /\ xy_transform ax (V_num v) direction name = Ok (T_num u).
Proof.
  intros Hn Hd.
  assert (exists f, xy_transform ax (V_seq l) direction name = Ok (T_seq (map f l)) /\ forall v, xy_transform ax (V_num v) direction name = Ok (T_num (f v))) as (f & E1 & E2).
  { unfold xy_transform. destruct Hd as [Hd|[Hd ->]].
    - destruct Hd as [<-|[<-|[<-|[<-|[]]]]]; destruct Hn as [<-|[<-|[]]]; eexists; split; reflexivity.
    - destruct Hd as [<-|[<-|[]]]; eexists; split; reflexivity. }
  exists (map f l). split; [exact E1|]. split; [apply map_length|]. intros i v Hi. exists (f v). split; [|apply E2]. now rewrite nth_error_map, Hi.
Qed.
Print Assumptions C160_lists_partial.

(** Only these names and types are accepted; everything else is refused with ValueError. *)
Theorem C160_errors ax value direction name e : xy_transform ax value direction name = Err e -> e = ValueError /\
  (~ In direction ["reverse"; "inverse"; "inv"; "rev"; "forward"; "fwd"] \/ ~ In name ["X"; "x"; "Y"; "y"] \/ value = V_other \/
   (exists l, value = V_seq l /\ l <> [] /\ In direction ["forward"; "fwd"] /\ name <> "x")).
Proof.
  assert (forall s l, among s l = true <-> In s l) as A.
  { intros s l. unfold among. rewrite existsb_exists. split; [intros (x & H & E); apply String.eqb_eq in E; now subst|intros H; exists s; split; [exact H|apply String.eqb_refl]]. }
  unfold xy_transform. destruct (among direction ["reverse"; "inverse"; "inv"; "rev"; "forward"; "fwd"]) eqn:E1; cbn [negb].
  2:{ intros H. split; [congruence|]. left. intros K. apply A in K. congruence. }
  destruct (among name ["X"; "x"; "Y"; "y"]) eqn:E2; cbn [negb].
  2:{ intros H. split; [congruence|]. right. left. intros K. apply A in K. congruence. }
  destruct (among direction ["reverse"; "inverse"; "inv"; "rev"]) eqn:E3.
  - destruct value; [destruct (String.eqb name "x"); discriminate|discriminate|]. intros H. split; [congruence|]. auto.
  - assert (In direction ["forward"; "fwd"]) as K.
    { apply A in E1. assert (~ In direction ["reverse"; "inverse"; "inv"; "rev"]) as N by (intros K; apply A in K; congruence). cbn in *. tauto. }
    destruct value; [destruct (String.eqb name "x"); discriminate| |intros H; split; [congruence|auto]].
    destruct (String.eqb_spec name "x") as [->|N]; [discriminate|]. destruct l as [|v l]; [discriminate|]. intros H. split; [congruence|].
    right. right. right. exists (v :: l). repeat split; auto. discriminate.
Qed.
Print Assumptions C160_errors.

(** The x axis called "X", which is accepted, is taken for the y axis; and no list of data values can be transformed on the y axis. *)
Theorem C160_refuted : (forall ax value direction, xy_transform ax value direction "X" = xy_transform ax value direction "y") /\
  (forall ax v l name direction, name <> "x" -> xy_transform ax (V_seq (v :: l)) direction name = Err ValueError \/ ~ In direction ["forward"; "fwd"]) /\
  (exists ax v u, drawable (fun _ => True) (x_axis ax) /\ drawable (fun _ => True) (y_axis ax) /\ on_axis (x_axis ax) v /\
     xy_transform ax (V_num v) "forward" "X" = Ok (T_num u) /\ 1 < u).
Proof.
  split; [intros ax [] d; reflexivity|]. split.
  - intros ax v l name d N. destruct (in_dec string_dec d ["forward"; "fwd"]) as [H|H]; [left|now right].
    unfold xy_transform. destruct H as [<-|[<-|[]]]; destruct (among name ["X"; "x"; "Y"; "y"]); cbn; try reflexivity;
      destruct (String.eqb_spec name "x"); try contradiction; reflexivity.
  - assert (forall hi, 0 < hi -> drawable (fun _ => True) {| scale := fun x => x; unscale := fun x => x; lim_1 := 0; lim_2 := hi; start := 0; extent := 1 |}) as DR.
    { intros hi H. constructor; cbn; auto; lra. }
    exists {| x_axis := {| scale := fun x => x; unscale := fun x => x; lim_1 := 0; lim_2 := 10; start := 0; extent := 1 |};
              y_axis := {| scale := fun x => x; unscale := fun x => x; lim_1 := 0; lim_2 := 1; start := 0; extent := 1 |} |}, 5, 5.
    split; [apply DR; lra|]. split; [apply DR; lra|]. split; [unfold on_axis; cbn; rewrite Rmin_left, Rmax_right; lra|]. split; [|lra].
    unfold xy_transform. cbn. do 2 f_equal. unfold inv_axes, trans_data. cbn. field.
Qed.
Print Assumptions C160_refuted.

(** A logarithmic axis from 1 to 1000. *)
Example C160_case : drawable (fun x => 0 < x) {| scale := ln; unscale := exp; lim_1 := 1; lim_2 := 1000; start := 80; extent := 496 |}.
Proof.
  constructor; cbn; try lra.
  - intros x y Hx Hy H. now apply ln_increasing.
  - intros x Hx. now apply exp_ln.
  - intros s _. split; [apply exp_pos|apply ln_exp].
Qed.
