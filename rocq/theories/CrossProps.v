(** C143: crosshairs. *)
From Coq Require Import ZArith Reals Lra Lia Bool.
From Coq Require Import String.
From Coq Require Import List.
From Verif Require Import Base Ext RoundModel RoundSpec RoundProofs RoundProps CrossModel.
Import ListNotations.
Open Scope R_scope.

(** crosshairs accepts an int as decimals and strings or None as labels and dateformat, and nothing else. *)
Theorem C143_arguments xl yl d df : (exists z a b, crosshairs xl yl d df = Ok (z, a, b) /\ d = AInt z /\
    a = (match xl with AStr s => s | _ => "x"%string end) /\ b = (match yl with AStr s => s | _ => "y"%string end)) <->
  (exists z, d = AInt z) /\ Forall (fun a => a = ANone \/ exists s, a = AStr s) [xl; yl; df].
Proof.
  assert (forall a, is_str_or_none a = true <-> (a = ANone \/ exists s, a = AStr s)) as A.
  { intros a. destruct a; cbn; split; intros H; try discriminate; try (left; reflexivity); try (right; eexists; reflexivity); try reflexivity;
      destruct H as [H|[s H]]; discriminate. }
  rewrite !Forall_cons_iff, <- !A. unfold crosshairs. split.
  - intros [z [a [b [H [-> _]]]]]. split; [now exists z|].
    destruct (is_str_or_none df); cbn [negb] in H; [|discriminate]. destruct (is_str_or_none xl); cbn [negb] in H; [|discriminate].
    destruct (is_str_or_none yl); cbn [negb] in H; [|discriminate]. repeat split. constructor.
  - intros [[z ->] [-> [-> [-> _]]]]. cbn [negb]. exists z. eexists _, _. repeat split; reflexivity.
Qed.
Print Assumptions C143_arguments.
Theorem C143_rejects xl yl d df e : crosshairs xl yl d df = Err e -> e = ValueError.
Proof.
  unfold crosshairs. destruct (is_str_or_none df); cbn [negb]; [|now intros H; injection H].
  destruct d; try (now intros H; injection H). destruct (is_str_or_none xl); cbn [negb]; [|now intros H; injection H].
  destruct (is_str_or_none yl); cbn [negb]; [discriminate|now intros H; injection H].
Qed.
Print Assumptions C143_rejects.

(** While hovering, the lines cross at the selected point and the texts at the axes say its coordinates: to
    within half a unit of the last decimal (or as many digits after the first for very large and small
    numbers); without decimals, the integer next to it towards zero. *)
Lemma trunc_near x : Rabs (IZR (trunc x) - x) < 1 /\ Rabs (IZR (trunc x)) <= Rabs x.
Proof.
  unfold trunc. destruct (Rle_dec 0 x) as [P|P].
  - pose proof (parts x) as B. assert (0 <= Int_part x)%Z.
    { assert (-1 < Int_part x)%Z; [|lia]. apply lt_IZR. lra. }
    apply IZR_le in H. split; [apply Rabs_def1; lra|]. rewrite !Rabs_pos_eq; lra.
  - pose proof (parts (- x)) as B. rewrite opp_IZR. assert (0 <= Int_part (- x))%Z.
    { assert (-1 < Int_part (- x))%Z; [|lia]. apply lt_IZR. lra. }
    apply IZR_le in H. split; [apply Rabs_def1; lra|]. rewrite Rabs_Ropp, (Rabs_left x), Rabs_pos_eq; lra.
Qed.
Theorem C143_hover d x y : exists v w,
  map (fun h => (says (h_text h), (h_x h, h_y h))) (hover d x y) = [(Some w, (0, y)); (Some v, (x, 0))] /\
  Forall (fun p => let '(shown, true_) := p in
    if (d =? 0)%Z then Rabs (shown - true_) < 1 /\ Rabs shown <= Rabs true_
    else Rabs (shown - true_) <= / 10 ^ Z.to_nat d / 2 \/ Rabs (shown - true_) <= Rabs true_ * / 10 ^ Z.to_nat d / 2) [(v, x); (w, y)].
Proof.
  assert (forall z, exists u, says (text_of (coordinate d z)) = Some u /\
    if (d =? 0)%Z then Rabs (u - z) < 1 /\ Rabs u <= Rabs z else Rabs (u - z) <= / 10 ^ Z.to_nat d / 2 \/ Rabs (u - z) <= Rabs z * / 10 ^ Z.to_nat d / 2) as A.
  { intros z. unfold coordinate. destruct (d =? 0)%Z; cbn [text_of].
    - exists (IZR (trunc z)). split; [reflexivity|apply trunc_near].
    - destruct (C141_options d true (10 ^ 9) (/ 10 ^ 4) z) as [u [H [B _]]]. exists u. now split. }
  destruct (A x) as [v [V1 V2]]. destruct (A y) as [w [W1 W2]]. exists v, w. unfold hover. cbn [map h_text h_x h_y].
  rewrite V1, W1. split; [reflexivity|]. repeat constructor; assumption.
Qed.
Print Assumptions C143_hover.
Theorem C143_lines x y : exists l1 l2, cross_lines x y = [l1; l2] /\
  (forall s t, (s = fst (fst l1) \/ s = snd (fst l1)) -> (t = fst (snd l2) \/ t = snd (snd l2)) -> s = x /\ t = y) /\ snd l1 = (0, 1) /\ fst l2 = (0, 1).
Proof. eexists _, _. repeat split; cbn in *; intuition congruence. Qed.
Print Assumptions C143_lines.

(** A click labels the point with its coordinates, as precisely ... *)
Theorem C143_click_partial d labels x y : d <> 0%Z -> exists a b v w, annotation d labels x y = Ok [(fst labels, a); (snd labels, b)] /\
  says a = Some v /\ says b = Some w /\
  (Rabs (v - x) <= / 10 ^ Z.to_nat d / 2 \/ Rabs (v - x) <= Rabs x * / 10 ^ Z.to_nat d / 2) /\
  (Rabs (w - y) <= / 10 ^ Z.to_nat d / 2 \/ Rabs (w - y) <= Rabs y * / 10 ^ Z.to_nat d / 2).
Proof.
  intros N. unfold annotation, coordinate. apply Z.eqb_neq in N. rewrite N.
  destruct (C141_options d true (10 ^ 9) (/ 10 ^ 4) x) as [v [V [Bv _]]]. destruct (C141_options d true (10 ^ 9) (/ 10 ^ 4) y) as [w [W [Bw _]]].
  eexists _, _, v, w. split; [reflexivity|]. repeat split; assumption.
Qed.
Print Assumptions C143_click_partial.
(** ... but with decimals=0, which the constructor accepts, every click raises TypeError. *)
Theorem C143_click_refuted labels x y : crosshairs ANone ANone (AInt 0) ANone = Ok (0%Z, "x"%string, "y"%string) /\
  annotation 0 labels x y = Err TypeError.
Proof. split; reflexivity. Qed.
Print Assumptions C143_click_refuted.

(** A case: the point (12.346, 3) with two decimals. *)
Example C143_case : exists s, annotation 2 ("t", "F")%string (12346 / 1000) 3 = Ok [("t", s); ("F", Whole 3)]%string /\ says s = Some (1235 / 100).
Proof.
  unfold annotation, coordinate. cbn [Z.eqb]. rewrite (whole_form 2 3). eexists. split; [reflexivity|].
  rewrite shown_ordinary by (unfold ordinary; rewrite Rabs_pos_eq; lra). f_equal. unfold on_grid. change (places 2) with 2%nat.
  rewrite ten_opp, ten_nat. rewrite (rne_near _ 1235); [lra|]. replace (12346 / 1000 / / 10 ^ 2) with (12346 / 10) by (field; lra). apply Rabs_def1; lra.
Qed.
