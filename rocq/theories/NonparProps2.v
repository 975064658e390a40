(** The properties C114-C116 of plotting positions and nonparametric estimators. *)
From Coq Require Import List Arith Reals Bool Permutation Sorted Lra Lia.
From Verif Require Import Base RealFacts Gauss Ext NonparModel NonparSpec NonparSpec2
  NonparProofs NonparProofs2 NonparProofs3 NonparProofs4 NonparProofs5.
Import ListNotations.
Open Scope R_scope.

(** ** C114 Only the order of the times matters *)
(** The possible sorted tables of the transformed data are the transformed sorted tables. *)
Theorem C114_tables : forall h f rc rows', increasing h ->
  (is_sorting_of (all_rows (map h f) (map h rc)) rows' <->
   exists rows, is_sorting_of (all_rows f rc) rows /\ rows' = map (retime_row h) rows).
Proof.
  intros h f rc rows' Hh. split.
  - intros H. destruct (sorting_retime_back h Hh f rc rows' H) as (rows & E & H'). now exists rows.
  - intros (rows & H & ->). now apply sorting_retime.
Qed.
Print Assumptions C114_tables.

(** Every estimate, limit and position stays what it was, at the transformed time. *)
Theorem C114_positions : forall h a rows, increasing h ->
  plotting_positions_sorted a (map (retime_row h) rows) =
  rmap (fun xy => (map h (fst xy), snd xy)) (plotting_positions_sorted a rows).
Proof. intros h a rows _. apply positions_retime. Qed.
Print Assumptions C114_positions.

Theorem C114_kaplan_meier : forall h CI rows, increasing h ->
  kaplan_meier CI (map (retime_row h) rows) = rmap (map (retime h)) (kaplan_meier CI rows).
Proof. intros h CI rows _. apply kaplan_meier_retime. Qed.
Print Assumptions C114_kaplan_meier.

Theorem C114_nelson_aalen : forall h CI rows, increasing h ->
  nelson_aalen CI (map (retime_row h) rows) =
  rmap (map (fun he => (fst he, retime h (snd he)))) (nelson_aalen CI rows).
Proof. intros h CI rows _. apply nelson_aalen_retime. Qed.
Print Assumptions C114_nelson_aalen.

(** The step arrays keep the starting point 0; the other times are transformed. *)
Theorem C114_steps : forall h es, increasing h ->
  let s := step_arrays es in let s' := step_arrays (map (retime h) es) in
  st_x s' = 0 :: map h (tl (st_x s)) /\ st_SF s' = st_SF s /\ st_lower s' = st_lower s /\ st_upper s' = st_upper s.
Proof.
  intros h es _ s s'. destruct (step_arrays_retime h es) as (H & H'). split; [|exact H'].
  unfold s, s'. rewrite H. assert (exists xs, st_x (step_arrays es) = 0 :: xs) as (xs & ->); [|reflexivity].
  destruct es as [|e es]; [now exists []|]. unfold step_arrays. destruct (step_loop e es) as [[[xs ys] ls] us].
  destruct (e_code e); simpl; eexists; reflexivity.
Qed.
Print Assumptions C114_steps.

Theorem C114_rank_adjustment : forall h CI a rows, increasing h ->
  rank_adjustment CI a (map (retime_row h) rows) =
  rmap (fun r => mkRA (map (retime h) (ra_entries r)) (0 :: map h (tl (ra_x r))) (ra_SF r) (ra_lower r) (ra_upper r))
    (rank_adjustment CI a rows).
Proof. intros h CI a rows _. apply rank_adjustment_retime. Qed.
Print Assumptions C114_rank_adjustment.

Example C114_example : increasing (fun x => exp x + 3 * x) /\
  is_sorting_of (all_rows [5; 1] [3]) [(1, true); (3, false); (5, true)] /\
  exists es, kaplan_meier (95 / 100) [(1, true); (3, false); (5, true)] = Ok es.
Proof.
  split; [intros x y H; pose proof (exp_increasing x y H); lra|]. split; [exact sorting_example|exact km_example].
Qed.

(** ** C115 The order in which the data are given does not matter *)
(** Missing from the full statement: data in which a failure and a censoring coincide, unless
    the sort puts the failure first. *)
Theorem C115_order_partial : forall f f' rc rc' rows rows',
  Permutation f f' -> Permutation rc rc' ->
  is_sorting_of (all_rows f rc) rows -> is_sorting_of (all_rows f' rc') rows' ->
  (forall u, In u f -> ~ In u rc) \/ (failures_first rows /\ failures_first rows') ->
  (forall CI, kaplan_meier CI rows = kaplan_meier CI rows') /\
  (forall CI, nelson_aalen CI rows = nelson_aalen CI rows') /\
  (forall CI a, rank_adjustment CI a rows = rank_adjustment CI a rows') /\
  (forall a, plotting_positions_sorted a rows = plotting_positions_sorted a rows').
Proof.
  intros f f' rc rc' rows rows' P1 P2 S1 S2 H.
  assert (rows = rows') as ->; [|repeat split; reflexivity].
  destruct H as [H|[H H']]; [now apply (same_rows_no_ties f f' rc rc')|now apply (same_rows f f' rc rc')].
Qed.
Print Assumptions C115_order_partial.

(** Two sorts of one data set, with different results. *)
Theorem C115_order_refuted : exists f rc rows rows' es es',
  is_sorting_of (all_rows f rc) rows /\ is_sorting_of (all_rows f rc) rows' /\
  kaplan_meier (95 / 100) rows = Ok es /\ kaplan_meier (95 / 100) rows' = Ok es' /\
  map e_est es <> map e_est es'.
Proof.
  exists [1; 2], [1], [(1, true); (1, false); (2, true)], [(1, false); (1, true); (2, true)].
  assert (forall rows, (2 <= n_failed rows)%nat -> exists es, kaplan_meier (95 / 100) rows = Ok es /\ map e_est es = km_est (map snd rows) 1) as K.
  { intros rows H. assert (exists es, kaplan_meier (95 / 100) rows = Ok es) as (es & E) by (eexists; apply kaplan_meier_succeeds; [lra|assumption]).
    exists es. split; [assumption|]. apply kaplan_meier_inv in E. destruct E as (_ & _ & ->). apply km_loop_est. }
  destruct (K [(1, true); (1, false); (2, true)]) as (es & E1 & E2); [unfold n_failed; simpl; lia|].
  destruct (K [(1, false); (1, true); (2, true)]) as (es' & E1' & E2'); [unfold n_failed; simpl; lia|].
  exists es, es'. repeat split; try assumption.
  - unfold all_rows. cbn [map app]. apply perm_skip, perm_swap.
  - repeat constructor; simpl; lra.
  - unfold all_rows. cbn [map app]. transitivity [(1, true); (1, false); (2, true)]; [apply perm_skip, perm_swap|apply perm_swap].
  - repeat constructor; simpl; lra.
  - rewrite E2, E2'. cbn. intros H. injection H as H _. lra.
Qed.
Print Assumptions C115_order_refuted.

Example C115_example : Permutation [5; 1] [1; 5] /\ Permutation [3] [3] /\ (forall u, In u [5; 1] -> ~ In u [3]) /\
  is_sorting_of (all_rows [5; 1] [3]) [(1, true); (3, false); (5, true)].
Proof.
  split; [apply perm_swap|]. split; [reflexivity|]. split; [|exact sorting_example].
  intros u [<-|[<-|[]]] [H|HH]; first [destruct HH|lra].
Qed.

(** ** C116 Censoring a failure never lowers the estimated reliability *)
Theorem C116_kaplan_meier : forall CI CI' rows rows' es es', censors_more rows rows' ->
  kaplan_meier CI rows = Ok es -> kaplan_meier CI' rows' = Ok es' -> Forall2 (fun e e' => e_est e <= e_est e') es es'.
Proof. exact kaplan_meier_censors. Qed.
Print Assumptions C116_kaplan_meier.

Theorem C116_nelson_aalen : forall CI CI' rows rows' es es', censors_more rows rows' ->
  nelson_aalen CI rows = Ok es -> nelson_aalen CI' rows' = Ok es' ->
  Forall2 (fun he he' => fst he' <= fst he /\ e_est (snd he) <= e_est (snd he')) es es'.
Proof. exact nelson_aalen_censors. Qed.
Print Assumptions C116_nelson_aalen.

Theorem C116_rank_adjustment : forall CI CI' a rows rows' b b', censors_more rows rows' -> a_value a < 1 ->
  rank_adjustment CI a rows = Ok b -> rank_adjustment CI' a rows' = Ok b' ->
  Forall2 (fun e e' => e_est e <= e_est e') (ra_entries b) (ra_entries b').
Proof. exact rank_adjustment_censors. Qed.
Print Assumptions C116_rank_adjustment.

Example C116_example :
  censors_more [(1, true); (3, true); (5, true)] [(1, true); (3, false); (5, true)] /\
  (exists es, kaplan_meier (95 / 100) [(1, true); (3, true); (5, true)] = Ok es) /\
  (exists es, kaplan_meier (95 / 100) [(1, true); (3, false); (5, true)] = Ok es) /\
  (exists b, rank_adjustment (95 / 100) None [(1, true); (3, false); (5, true)] = Ok b).
Proof.
  split; [repeat constructor; simpl; tauto|]. split; [|split; [exact km_example|exact ra_example]].
  eexists. apply kaplan_meier_succeeds; [lra|]. unfold n_failed. simpl. lia.
Qed.
