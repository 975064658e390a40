(** C142: the distribution explorer. *)
From Coq Require Import Reals Lra Lia.
From Coq Require Import String.
From Coq Require Import List Bool Arith.
From Verif Require Import Base Ext DistModel InputModel AxesModel RoundModel ExploreModel ExploreSpec ExploreProofs.
Import ListNotations.
Open Scope R_scope.

(** Whatever was clicked and moved, in whatever order: nothing fails, and one and the same distribution is
    named by the button, given by the visible sliders, drawn (alone) in each of the five panels and written
    in the title; its parameters are valid and within the ranges of the sliders. *)
Theorem C142_shows h : exists e d, run start h = Ok e /\ shows e d /\ valid d /\
  v_ranges (look e) = ranges d /\ Forall2 (fun v r => fst r <= snd v <= snd r) (dials e) (v_ranges (look e)).
Proof.
  destruct (run_good start h start_good) as [e [R0 G]]. destruct (good_shows e G) as [d H]. now exists e, d.
Qed.
Print Assumptions C142_shows.

(** After a click on a button its distribution is shown with its initial parameters. *)
Theorem C142_click h i name : nth_error buttons i = Some name ->
  exists e d, run start (h ++ [Click i]) = Ok e /\ initial name = Some d /\ shows e d.
Proof.
  intros N. destruct (run_good start h start_good) as [e [R0 G]].
  destruct (click_good e name G (nth_error_In _ _ N)) as [e1 [U [G1 N1]]].
  destruct (good_shows e1 G1) as [d [S1 _]]. exists e1, d. split; [|split; [|exact S1]].
  - rewrite run_app, R0. cbn [bind run react]. rewrite N, U. reflexivity.
  - destruct (click_fields _ _ _ U) as [t0 [t1 [t2 [T [_ [A [B [C D]]]]]]]]. destruct S1 as [S1 _]. rewrite N1 in S1.
    assert (In name buttons) as Bt by (eapply nth_error_In; eassumption). unfold dials in S1. rewrite A, B, C, D in S1. clear - T S1 Bt.
    buttons Bt; subst name; cbn in T; injection T as <- <- <-; cbn [app map connect new_slider l_label l_val] in S1;
      rewrite !clip_id in S1 by lra; destruct d; cbn [by_name] in S1; try discriminate; injection S1; intros; subst; reflexivity.
Qed.
Print Assumptions C142_click.

(** What is seen depends only on what was done since the last click on a button. *)
Theorem C142_since_click h1 h2 i : (i < 8)%nat -> exists e e', run start (h1 ++ Click i :: h2) = Ok e /\
  run start (Click i :: h2) = Ok e' /\ look e = look e'.
Proof.
  intros I. destruct (nth_error buttons i) as [name|] eqn:N; [|apply nth_error_None in N; cbn in N; lia].
  destruct (run_good start h1 start_good) as [e0 [R0 G0]].
  destruct (click_good e0 name G0 (nth_error_In _ _ N)) as [e1 [U1 [G1 _]]].
  destruct (click_good start name start_good (nth_error_In _ _ N)) as [e1' [U1' [G1' _]]].
  destruct (run_good e1 h2 G1) as [e [R1 G]]. destruct (run_good e1' h2 G1') as [e' [R1' G']].
  exists e, e'. split; [|split].
  - rewrite run_app, R0. cbn [bind run react]. rewrite N, U1. exact R1.
  - cbn [run react]. rewrite N, U1'. exact R1'.
  - destruct (run_alike h2 e1 e1' e e' G1 G1' (click_alike _ _ _ _ _ U1 U1') R1 R1') as [A _]. now apply alike_look.
Qed.
Print Assumptions C142_since_click.

(** Moving the i-th visible slider to v sets its parameter to v, or the nearest value in its range, and
    leaves the name, the other parameters and all the ranges as they are. *)
Theorem C142_move h i v e : run start h = Ok e -> (i < length (dials e))%nat ->
  exists e1 lo hi, run start (h ++ [Move i v]) = Ok e1 /\ nth_error (v_ranges (look e)) i = Some (lo, hi) /\
  v_name (look e1) = v_name (look e) /\ v_ranges (look e1) = v_ranges (look e) /\
  map fst (dials e1) = map fst (dials e) /\
  forall j, option_map snd (nth_error (dials e1) j) =
    if Nat.eqb j i then Some (Rmin hi (Rmax lo v)) else option_map snd (nth_error (dials e) j).
Proof.
  intros R0 I. destruct (run_good start h start_good) as [e' [R0' G]]. rewrite R0 in R0'. injection R0' as <-.
  assert (forall s, in_range s -> clip (l_lo s) (l_hi s) v = Rmin (l_hi s) (Rmax (l_lo s) v)) as C.
  { intros s H. unfold in_range in H. unfold clip.
    destruct (Rle_dec v (l_lo s)); [rewrite Rmax_left, Rmin_right by lra; reflexivity|]. rewrite Rmax_right by lra.
    destruct (Rle_dec (l_hi s) v); [now rewrite Rmin_left by lra|now rewrite Rmin_right by lra]. }
  pose proof (C _ (g_r0 e G)) as C0. pose proof (C _ (g_r1 e G)) as C1. pose proof (C _ (g_r2 e G)) as C2. clear C.
  destruct (react_good e (Move i v) G) as [e1 [E1 _]].
  assert (run start (h ++ [Move i v]) = Ok e1) as R1.
  { rewrite run_app, R0. cbn [bind run]. rewrite E1. reflexivity. }
  exists e1. rewrite R1.
  assert (length (dials e) = if e_ax2 e then 3%nat else 2%nat) as L by (unfold dials; rewrite map_length; destruct (e_ax2 e); reflexivity).
  rewrite L in I. destruct i as [|[|[|i]]]; [| | |destruct (e_ax2 e); lia]; cbn [react] in E1.
  - rewrite repeat_once in E1 by (rewrite (g_c0 e G); lia). apply update_fields in E1. cbn [e_name e_s0 e_s1 e_s2 e_ax2] in E1.
    destruct E1 as [N [S0 [S1 [S2 V]]]]. unfold look, dials. cbn [v_ranges v_name]. rewrite N, S0, S1, S2, V.
    exists (l_lo (e_s0 e)), (l_hi (e_s0 e)). repeat split; try reflexivity. intros [|[|[|j]]]; destruct (e_ax2 e); cbn; rewrite ?C0; try reflexivity; now destruct j.
  - rewrite repeat_once in E1 by (rewrite (g_c1 e G); lia). apply update_fields in E1. cbn [e_name e_s0 e_s1 e_s2 e_ax2] in E1.
    destruct E1 as [N [S0 [S1 [S2 V]]]]. unfold look, dials. cbn [v_ranges v_name]. rewrite N, S0, S1, S2, V.
    exists (l_lo (e_s1 e)), (l_hi (e_s1 e)). repeat split; try reflexivity. intros [|[|[|j]]]; destruct (e_ax2 e); cbn; rewrite ?C1; try reflexivity; now destruct j.
  - destruct (e_ax2 e) eqn:Q; [|lia].
    rewrite repeat_once in E1 by apply (g_c2 e G). apply update_fields in E1. cbn [e_name e_s0 e_s1 e_s2 e_ax2] in E1.
    destruct E1 as [N [S0 [S1 [S2 V]]]]. unfold look, dials. cbn [v_ranges v_name]. rewrite N, S0, S1, S2, V, Q.
    exists (l_lo (e_s2 e)), (l_hi (e_s2 e)). repeat split; try reflexivity. intros [|[|[|j]]]; cbn; rewrite ?C2; try reflexivity; now destruct j.
Qed.
Print Assumptions C142_move.

(** A case: Normal, then Lognormal with sigma moved beyond its range. *)
Example C142_case : exists e, run start [Click 2; Move 0 5; Click 3; Move 1 7; Move 2 20] = Ok e /\
  e_name e = "Lognormal"%string /\ dials e = [("Mu", 5 / 2); ("Sigma", 2); ("Gamma", 20)]%string /\ shows e (Lognormal (5 / 2) 2 20).
Proof.
  assert (forall a b : explorer, Ok a = Ok b -> a = b) as J by (intros a b Q; now inversion Q).
  destruct (C142_click [Click 2; Move 0 5] 3 "Lognormal" eq_refl) as [e0 [d0 [H0 [I0 S0]]]].
  cbn [initial find fst String.eqb Ascii.eqb Bool.eqb] in I0. injection I0 as <-.
  assert (dials e0 = [("Mu", 5 / 2); ("Sigma", 1 / 2); ("Gamma", 0)]%string /\ e_name e0 = "Lognormal"%string) as [D0 N0].
  { destruct S0 as [S0 _]. cbn [by_name] in S0. apply pair_equal_spec in S0. destruct S0 as [A B]. split; symmetry; assumption. }
  assert (v_ranges (look e0) = [(0, 5); (1 / 100, 2); (0, 500)]) as Q0.
  { destruct (C142_shows ([Click 2; Move 0 5] ++ [Click 3])) as [e' [d' [H' [S' [_ [V' _]]]]]]. rewrite H0 in H'. apply J in H'. subst e'.
    rewrite V'. destruct S' as [S' _]. rewrite N0 in S'. destruct d'; cbn [by_name] in S'; try discriminate S'. reflexivity. }
  destruct (C142_move _ 1 7 e0 H0 ltac:(rewrite D0; cbn; lia)) as [e1 [lo [hi [H1 [E1 [N1 [Q1 [F1 D1]]]]]]]].
  rewrite Q0 in E1, Q1. cbn [nth_error] in E1. apply (f_equal (fun o => match o with Some p => p | None => (0, 0) end)) in E1. apply pair_equal_spec in E1. destruct E1 as [<- <-].
  assert (length (dials e1) = 3%nat) as L1 by (rewrite <- (map_length fst), F1, D0; reflexivity).
  destruct (C142_move _ 2 20 e1 H1 ltac:(rewrite L1; lia)) as [e2 [lo [hi [H2 [E2 [N2 [Q2 [F2 D2]]]]]]]].
  rewrite Q1 in E2. cbn [nth_error] in E2. apply (f_equal (fun o => match o with Some p => p | None => (0, 0) end)) in E2. apply pair_equal_spec in E2. destruct E2 as [<- <-].
  exists e2. split; [exact H2|].
  assert (e_name e2 = "Lognormal"%string) as A by (cbn [look v_name] in N1, N2; congruence).
  assert (dials e2 = [("Mu", 5 / 2); ("Sigma", 2); ("Gamma", 20)]%string) as B.
  { rewrite F1, D0 in F2. cbn [map fst] in F2.
    destruct (dials e2) as [|[n0 v0] [|[n1 v1] [|[n2 v2] [|? ?]]]]; try discriminate F2. cbn [map fst] in F2. injection F2 as -> -> ->.
    pose proof (D2 0%nat) as X0. pose proof (D2 1%nat) as X1. pose proof (D2 2%nat) as X2. rewrite (D1 0%nat), D0 in X0. rewrite (D1 1%nat) in X1.
    cbn [nth_error option_map snd Nat.eqb] in X0, X1, X2.
    assert (forall a b : R, Some a = Some b -> a = b) as J' by (intros a b Q; now inversion Q). apply J' in X0, X1, X2. subst v0 v1 v2.
    rewrite (Rmax_right (1 / 100) 7), (Rmin_left 2 7), (Rmax_right 0 20), (Rmin_right 500 20) by lra. reflexivity. }
  split; [exact A|]. split; [exact B|].
  destruct (C142_shows (([Click 2; Move 0 5] ++ [Click 3]) ++ [Move 1 7] ++ [Move 2 20])) as [e' [d [H' [Sh _]]]].
  rewrite app_assoc in H'. rewrite H2 in H'. apply J in H'. subst e'.
  assert (d = Lognormal (5 / 2) 2 20) as <-; [|exact Sh].
  destruct Sh as [Sh _]. rewrite A, B in Sh. destruct d; cbn [by_name] in Sh; try discriminate Sh. apply pair_equal_spec in Sh. destruct Sh as [_ Sh].
  injection Sh. intros -> -> ->. reflexivity.
Qed.
