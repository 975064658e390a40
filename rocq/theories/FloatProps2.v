(** C158, with censoring: the ranks adjusted for the censored times, computed in double precision, are those of exact
    arithmetic to within a bound that grows by 3 units of rounding of n + 1 for each failure. *)
From Flocq Require Import Core.
From Coq Require Import List Arith Reals Bool Lra Lia Psatz.
From Verif Require Import Base FloatModel FloatSpec FloatProofs FloatProofs2 FloatProofs3 FloatProofs4 FloatProps.
From Verif Require NonparModel.
Import ListNotations.
Open Scope R_scope.

Theorem C158_censored : forall a codes ys j y, INR (length codes) + 1 <= 2 ^ 50 -> double a -> 0 <= a <= 1 ->
  fpositions a codes = Ok ys -> nth_error ys j = Some y ->
  exists exact w v, NonparModel.adjusted_ranks codes = Ok exact /\ nth_error exact j = Some w /\
    double v /\ Rabs (v - w) <= 3 * INR (j + 1) * (INR (length codes) + 1) * / 2 ^ 53 /\
    within_roundings 4 ((v - a) / (INR (length codes) + 1 - 2 * a)) y.
Proof.
  intros a codes ys j y HN Ha H01 H Hy. destruct (fpositions_inv a codes ys HN H) as (ranks & ER & HD & ->).
  rewrite nth_error_map in Hy. destruct (nth_error ranks j) as [v|] eqn:Ev; [|discriminate Hy].
  destruct (franks_exact codes ranks ER) as (exact & EE & EL).
  destruct (nth_error exact j) as [w|] eqn:Ew.
  2:{ apply nth_error_None in Ew. assert (nth_error ranks j <> None) as N by congruence. apply nth_error_Some in N. lia. }
  destruct (franks_climbs codes ranks HN ER) as [C _]. destruct (climbs_nth _ _ _ _ _ C Ev) as (HI & _ & HF).
  assert (1 <= length codes)%nat as HL by (destruct codes; [discriminate ER|simpl; lia]).
  exists exact, w, v. split; [exact EE|]. split; [exact Ew|]. split; [apply fmt_double; exact HF|]. split.
  - pose proof (franks_err codes ranks exact j v w HN ER EE Ev Ew) as B. unfold u in B.
    apply Rle_trans with (1 := B). right. ring.
  - assert (y = position (length codes) a v) as -> by (cbn [option_map] in Hy; congruence).
    apply position_within'; auto. now apply double_fmt.
Qed.
Print Assumptions C158_censored.

(** A sample with a censored time before, between and after the failures. *)
Example C158_censored_example : exists ys y, fpositions (1 / 2) [false; true; false; true; true; false] = Ok ys /\ nth_error ys 2 = Some y.
Proof.
  set (codes := [false; true; false; true; true; false]).
  assert (INR (length codes) + 1 <= 2 ^ 50) as HN by (rewrite pow2_50; simpl; lra).
  assert (double (1 / 2)) as HD.
  { exists 1%Z, (-1)%Z. split; [simpl; lra|]. split; [reflexivity|lia]. }
  destruct (C158_runs (1 / 2) codes HN HD ltac:(lra) ltac:(simpl; auto) ltac:(left; simpl; lia)) as [ys E].
  pose proof (C158_complete _ _ _ HN E) as L.
  destruct (nth_error ys 2) as [y|] eqn:Ey; [eauto|]. apply nth_error_None in Ey. rewrite L in Ey. simpl in Ey. lia.
Qed.
