(** Lemmas for C114-C116: transformations of the time scale, order of the data, and the
    effect of censoring a failure. *)
From Coq Require Import List Arith Reals Bool Permutation Sorted Lra Lia.
From Verif Require Import Base RealFacts Gauss Ext NonparModel NonparSpec NonparSpec2
  NonparProofs NonparProofs2 NonparProofs3 NonparProofs4.
Import ListNotations.
Open Scope R_scope.

(** ** Transformed times *)
Section Retime.
  Variable h : R -> R.
  Hypothesis Hh : increasing h.

  Lemma incr_le x y : x <= y <-> h x <= h y.
  Proof.
    split; intros H.
    - destruct H as [H| ->]; [left; now apply Hh|lra].
    - destruct (Rle_lt_dec x y) as [H'|H']; [assumption|]. apply Hh in H'. lra.
  Qed.
  Lemma incr_inj x y : h x = h y -> x = y.
  Proof. intros H. apply Rle_antisym; apply incr_le; lra. Qed.

  Notation hr := (retime_row h).

  Lemma all_rows_retime f rc : all_rows (map h f) (map h rc) = map hr (all_rows f rc).
  Proof. unfold all_rows. rewrite map_app, !map_map. reflexivity. Qed.

  Lemma hr_inj r s : hr r = hr s -> r = s.
  Proof. destruct r as [t c], s as [t' c']. intros H. injection H as H1 H2. apply incr_inj in H1. now subst. Qed.

  Lemma perm_map_back rows' : forall data, Permutation (map hr data) rows' -> exists rows, rows' = map hr rows /\ Permutation data rows.
  Proof.
    intros data H. apply Permutation_sym, Permutation_map_inv in H as (l & H1 & H2). exists l. split; assumption.
  Qed.

  Lemma sorted_map_iff rows : StronglySorted (fun r s : row => fst r <= fst s) rows <-> StronglySorted (fun r s : row => fst r <= fst s) (map hr rows).
  Proof.
    induction rows as [|r rows IH]; [split; constructor|]. simpl. split; intros H; inversion H as [|? ? H1 H2]; subst; constructor.
    - now apply IH.
    - rewrite Forall_map. revert H2. apply Forall_impl. intros s. simpl. apply incr_le.
    - now apply IH.
    - rewrite Forall_map in H2. revert H2. apply Forall_impl. intros s. simpl. apply incr_le.
  Qed.

  Lemma sorting_retime f rc rows : is_sorting_of (all_rows f rc) rows -> is_sorting_of (all_rows (map h f) (map h rc)) (map hr rows).
  Proof. intros [H1 H2]. rewrite all_rows_retime. split; [now apply Permutation_map|exact (proj1 (sorted_map_iff _) H2)]. Qed.
  Lemma sorting_retime_back f rc rows' : is_sorting_of (all_rows (map h f) (map h rc)) rows' ->
    exists rows, rows' = map hr rows /\ is_sorting_of (all_rows f rc) rows.
  Proof.
    rewrite all_rows_retime. intros [H1 H2]. destruct (perm_map_back _ _ H1) as (rows & -> & H3).
    exists rows. split; [reflexivity|]. split; [assumption|exact (proj2 (sorted_map_iff _) H2)].
  Qed.

  Lemma map_snd_hr rows : map snd (map hr rows) = map snd rows.
  Proof. rewrite map_map. apply map_ext. now intros [t c]. Qed.
  Lemma filter_snd_hr rows : filter snd (map hr rows) = map hr (filter snd rows).
  Proof. induction rows as [|[t c] rows IH]; [reflexivity|]. simpl. destruct c; simpl; now rewrite IH. Qed.

  Lemma positions_retime a rows :
    plotting_positions_sorted a (map hr rows) = rmap (fun xy => (map h (fst xy), snd xy)) (plotting_positions_sorted a rows).
  Proof.
    unfold plotting_positions_sorted. rewrite map_snd_hr. destruct (check_a a) as [v|e]; [|reflexivity]. simpl.
    destruct (positions v (map snd rows)) as [y|e]; [|reflexivity]. simpl. f_equal. f_equal.
    unfold failure_times. rewrite filter_snd_hr, !map_map. reflexivity.
  Qed.

  Lemma km_retime z rows : forall prev sf d, km_loop z (map hr rows) prev sf d = map (retime h) (km_loop z rows prev sf d).
  Proof.
    induction rows as [|[t c] rows IH]; intros prev sf d; [reflexivity|]. cbn [map retime_row fst snd km_loop].
    rewrite map_length. destruct c.
    - destruct (greenwood z (S (length rows)) ((INR (S (length rows)) - NonparModel.code true) / INR (S (length rows)) * prev) sf) as [sf' d'].
      cbn [map]. rewrite IH. reflexivity.
    - cbn [map]. rewrite IH. reflexivity.
  Qed.
  Lemma na_retime z rows : forall H sf d, na_loop z (map hr rows) H sf d = map (fun he => (fst he, retime h (snd he))) (na_loop z rows H sf d).
  Proof.
    induction rows as [|[t c] rows IH]; intros H sf d; [reflexivity|]. cbn [map retime_row fst snd na_loop].
    rewrite map_length. destruct c.
    - destruct (greenwood z (S (length rows)) (exp (- (H + NonparModel.code true / INR (S (length rows))))) sf) as [sf' d'].
      cbn [map]. rewrite IH. reflexivity.
    - cbn [map]. rewrite IH. reflexivity.
  Qed.
  Lemma ra_retime z rows : forall cur ys sf d, ra_loop z (map hr rows) cur ys sf d = map (retime h) (ra_loop z rows cur ys sf d).
  Proof.
    induction rows as [|[t c] rows IH]; intros cur ys sf d; [reflexivity|]. cbn [map retime_row fst snd ra_loop].
    rewrite map_length. destruct c.
    - destruct (greenwood z (S (length rows)) (1 - hd 0 ys) sf) as [sf' d']. cbn [map]. rewrite IH. reflexivity.
    - cbn [map]. rewrite IH. reflexivity.
  Qed.

  Lemma kaplan_meier_retime CI rows : kaplan_meier CI (map hr rows) = rmap (map (retime h)) (kaplan_meier CI rows).
  Proof.
    unfold kaplan_meier. rewrite filter_snd_hr, map_length. destruct (np_checks CI (length (filter snd rows))) as [u|e]; [|reflexivity].
    simpl. now rewrite km_retime.
  Qed.
  Lemma nelson_aalen_retime CI rows :
    nelson_aalen CI (map hr rows) = rmap (map (fun he => (fst he, retime h (snd he)))) (nelson_aalen CI rows).
  Proof.
    unfold nelson_aalen. rewrite filter_snd_hr, map_length. destruct (np_checks CI (length (filter snd rows))) as [u|e]; [|reflexivity].
    simpl. now rewrite na_retime.
  Qed.

  Lemma step_loop_retime es : forall prev, step_loop (retime h prev) (map (retime h) es) =
    let s := step_loop prev es in (map h (st_x s), st_SF s, st_lower s, st_upper s).
  Proof.
    induction es as [|e es IH]; intros prev; [reflexivity|]. cbn [map step_loop].
    rewrite IH. destruct (step_loop e es) as [[[xs ys] ls] us]. cbn -[Req_EM_T].
    destruct (Req_EM_T (e_est prev) (e_est e)); reflexivity.
  Qed.
  Lemma step_arrays_retime es : let s := step_arrays es in let s' := step_arrays (map (retime h) es) in
    st_x s' = match st_x s with [] => [] | _ :: xs => 0 :: map h xs end /\
    st_SF s' = st_SF s /\ st_lower s' = st_lower s /\ st_upper s' = st_upper s.
  Proof.
    destruct es as [|e es]; [repeat split|]. cbn [map step_arrays]. rewrite step_loop_retime.
    destruct (step_loop e es) as [[[xs ys] ls] us]. cbn -[last].
    destruct (e_code e); cbn -[last]; repeat split; reflexivity.
  Qed.

  Lemma ra_steps_map x : forall y prev, map (fun p => (h (fst p), snd p)) (ra_steps prev (combine x y)) = ra_steps prev (combine (map h x) y).
  Proof. induction x as [|a x IH]; intros [|b y] prev; try reflexivity. cbn [combine ra_steps map fst snd]. now rewrite IH. Qed.

  Lemma last_map {A B} (g : A -> B) l d : last (map g l) (g d) = g (last l d).
  Proof. induction l as [|a [|b l] IH]; [reflexivity|reflexivity|]. cbn [map last] in *. exact IH. Qed.
  Lemma last_default {A} (l : list A) d d' : l <> [] -> last l d = last l d'.
  Proof. induction l as [|a [|b l] IH]; intros H; [contradiction|reflexivity|]. cbn [last] in *. apply IH. discriminate. Qed.

  Lemma filter_code_retime es : filter e_code (map (retime h) es) = map (retime h) (filter e_code es).
  Proof. induction es as [|e es IH]; [reflexivity|]. cbn [map filter retime e_code]. destruct (e_code e); cbn [map]; now rewrite IH. Qed.

  Lemma ra_build_retime z rows x y : rows <> [] ->
    ra_build z (map hr rows) (map h x) y =
    let b := ra_build z rows x y in
    mkRA (map (retime h) (ra_entries b)) (0 :: map h (tl (ra_x b))) (ra_SF b) (ra_lower b) (ra_upper b).
  Proof.
    intros Hne. unfold ra_build. rewrite ra_retime. cbn zeta.
    assert (last (map hr rows) (0, false) = hr (last rows (0, false))) as El.
    { rewrite (last_default (map hr rows) (0, false) (hr (0, false))) by (destruct rows; [contradiction|discriminate]). apply last_map. }
    rewrite El. cbn [retime_row fst snd].
    set (es := ra_loop z rows 0 y (Fin 0) (Fin 0)).
    rewrite filter_code_retime, !map_map. cbn [retime e_lower e_upper].
    set (S := ra_steps 0 (combine x y)).
    assert (ra_steps 0 (combine (map h x) y) = map (fun p => (h (fst p), snd p)) S) as -> by (unfold S; now rewrite ra_steps_map).
    change (snd (hr (last rows (0, false)))) with (snd (last rows (0, false))).
    assert (snd (last ((0, 0) :: map (fun p => (h (fst p), snd p)) S) (0, 0)) = snd (last ((0, 0) :: S) (0, 0))) as El2.
    { destruct S as [|p S]; [reflexivity|]. rewrite !last_cons_ne by discriminate.
      rewrite (last_default (map (fun p => (h (fst p), snd p)) (p :: S)) (0, 0) (h 0, 0)) by discriminate.
      exact (f_equal snd (last_map (fun p => (h (fst p), snd p)) (p :: S) (0, 0))). }
    destruct (snd (last rows (0, false))) eqn:E.
    - cbn [ra_entries ra_x ra_SF ra_lower ra_upper map tl fst snd]. rewrite !map_map. reflexivity.
    - rewrite El2. cbn [ra_entries ra_x ra_SF ra_lower ra_upper app map tl fst snd]. rewrite !map_app, !map_map. cbn [map fst snd]. reflexivity.
  Qed.

  Lemma rank_adjustment_retime CI a rows :
    rank_adjustment CI a (map hr rows) =
    rmap (fun b => mkRA (map (retime h) (ra_entries b)) (0 :: map h (tl (ra_x b))) (ra_SF b) (ra_lower b) (ra_upper b)) (rank_adjustment CI a rows).
  Proof.
    unfold rank_adjustment. rewrite filter_snd_hr, map_length.
    destruct (np_checks CI (length (filter snd rows))) as [u|e] eqn:E; [|reflexivity]. simpl. rewrite positions_retime.
    destruct (plotting_positions_sorted a rows) as [[x y]|e]; [|reflexivity]. simpl. f_equal.
    apply ra_build_retime. intros ->. destruct u. apply np_checks_ok in E. simpl in E. lia.
  Qed.
End Retime.

(** ** The order in which the data are given *)
Definition row_le (r s : row) : Prop := fst r < fst s \/ (fst r = fst s /\ (snd r = true \/ snd s = false)).
Lemma row_le_antisym r s : row_le r s -> row_le s r -> r = s.
Proof.
  destruct r as [t c], s as [t' c']. unfold row_le. simpl. intros [H|[-> H]] [H'|[H1 H']]; try lra.
  destruct c, c'; try reflexivity; intuition discriminate.
Qed.

Lemma failures_first_sorted rows : StronglySorted (fun r s : row => fst r <= fst s) rows -> failures_first rows -> StronglySorted row_le rows.
Proof.
  induction rows as [|r rows IH]; intros H F; [constructor|]. inversion H as [|? ? H1 H2]; subst. constructor.
  - apply IH; [assumption|]. exact (failures_first_tail _ _ F).
  - rewrite Forall_forall in *. intros s Hs. specialize (H2 s Hs). unfold row_le.
    destruct H2 as [H2|H2]; [now left|]. right. split; [assumption|].
    destruct r as [t c], s as [t' c']. simpl in *. subst t'. destruct c; [now left|]. right.
    destruct c'; [|reflexivity]. exfalso. exact (F [] t rows eq_refl Hs).
Qed.

Lemma sorted_unique (l : list row) : forall l', StronglySorted row_le l -> StronglySorted row_le l' -> Permutation l l' -> l = l'.
Proof.
  induction l as [|r l IH]; intros l' H H' P.
  - apply Permutation_nil in P. now subst.
  - destruct l' as [|r' l']; [apply Permutation_sym, Permutation_nil in P; discriminate|].
    inversion H as [|? ? H1 H2]; inversion H' as [|? ? H1' H2']; subst.
    assert (r = r') as <-.
    { rewrite Forall_forall in *.
      assert (In r (r' :: l')) as I1 by (apply (Permutation_in _ P); now left).
      assert (In r' (r :: l)) as I2 by (apply (Permutation_in _ (Permutation_sym P)); now left).
      destruct I1 as [I1|I1]; [now symmetry|]. destruct I2 as [I2|I2]; [assumption|].
      apply row_le_antisym; auto. }
    f_equal. apply IH; try assumption. exact (Permutation_cons_inv P).
Qed.

Lemma all_rows_perm f f' rc rc' : Permutation f f' -> Permutation rc rc' -> Permutation (all_rows f rc) (all_rows f' rc').
Proof. intros H1 H2. unfold all_rows. apply Permutation_app; now apply Permutation_map. Qed.

Lemma same_rows f f' rc rc' rows rows' : Permutation f f' -> Permutation rc rc' ->
  is_sorting_of (all_rows f rc) rows -> is_sorting_of (all_rows f' rc') rows' ->
  failures_first rows -> failures_first rows' -> rows = rows'.
Proof.
  intros P1 P2 [S1 S2] [S1' S2'] F F'. apply sorted_unique.
  - now apply failures_first_sorted.
  - now apply failures_first_sorted.
  - transitivity (all_rows f rc); [now symmetry|]. transitivity (all_rows f' rc'); [now apply all_rows_perm|assumption].
Qed.

Lemma same_rows_no_ties f f' rc rc' rows rows' : Permutation f f' -> Permutation rc rc' ->
  (forall u, In u f -> ~ In u rc) ->
  is_sorting_of (all_rows f rc) rows -> is_sorting_of (all_rows f' rc') rows' -> rows = rows'.
Proof.
  intros P1 P2 N H H'. apply (same_rows f f' rc rc'); try assumption.
  - now apply (no_mixed_ties_first f rc).
  - apply (no_mixed_ties_first f' rc'); [|assumption]. intros u Hu Hc. apply (N u).
    + now apply (Permutation_in _ (Permutation_sym P1)).
    + now apply (Permutation_in _ (Permutation_sym P2)).
Qed.

(** ** Censoring instead of failing *)
Lemma censors_length rows rows' : censors_more rows rows' -> length rows' = length rows.
Proof. induction 1; simpl; congruence. Qed.

Lemma km_censors z z' rows rows' : censors_more rows rows' -> forall prev prev' sf d sf' d', 0 <= prev <= prev' ->
  Forall2 (fun e e' => e_est e <= e_est e') (km_loop z rows prev sf d) (km_loop z' rows' prev' sf' d').
Proof.
  induction 1 as [|[t c] [t' c'] rows rows' [H1 H2] H IH]; intros prev prev' sf d sf' d' Hp; [constructor|].
  cbn [fst snd] in H1, H2. subst t'. cbn [km_loop]. rewrite (censors_length rows rows' H).
  set (m := length rows).
  assert (0 <= (INR (S m) - NonparModel.code c) / INR (S m) * prev <= (INR (S m) - NonparModel.code c') / INR (S m) * prev') as Hk.
  { pose proof (km_factor_range c m) as K. pose proof (km_factor_range c' m) as K'. split; [apply Rmult_le_pos; lra|].
    apply Rmult_le_compat; try lra. unfold Rdiv. apply Rmult_le_compat_r.
    - left. apply Rinv_0_lt_compat. apply lt_0_INR. lia.
    - unfold NonparModel.code. destruct c, c'; first [lra|specialize (H2 eq_refl); discriminate]. }
  destruct (if c then _ else _) as [sf1 d1]. destruct (if c' then _ else _) as [sf1' d1'].
  constructor; [exact (proj2 Hk)|]. now apply IH.
Qed.

Lemma na_censors z z' rows rows' : censors_more rows rows' -> forall H H' sf d sf' d', H' <= H ->
  Forall2 (fun he he' => fst he' <= fst he /\ e_est (snd he) <= e_est (snd he')) (na_loop z rows H sf d) (na_loop z' rows' H' sf' d').
Proof.
  induction 1 as [|[t c] [t' c'] rows rows' [H1 H2] HC IH]; intros H H' sf d sf' d' Hp; [constructor|].
  cbn [fst snd] in H1, H2. subst t'. cbn [na_loop]. rewrite (censors_length rows rows' HC).
  set (m := length rows).
  assert (H' + NonparModel.code c' / INR (S m) <= H + NonparModel.code c / INR (S m)) as Hk.
  { apply Rplus_le_compat; [assumption|]. unfold Rdiv. apply Rmult_le_compat_r.
    - left. apply Rinv_0_lt_compat. apply lt_0_INR. lia.
    - unfold NonparModel.code. destruct c, c'; first [lra|specialize (H2 eq_refl); discriminate]. }
  destruct (if c then _ else _) as [sf1 d1]. destruct (if c' then _ else _) as [sf1' d1'].
  constructor; [|now apply IH]. cbn [fst snd e_est]. split; [assumption|].
  destruct Hk as [Hk|Hk]; [left; apply exp_increasing; lra|right; f_equal; lra].
Qed.

Section Ranks.
  Variables (n : nat) (a : R).
  Hypothesis Ha : 0 <= a < 1.
  Hypothesis Hn : (1 <= n)%nat.
  Let pos (i : R) : R := (i - a) / (INR n + 1 - 2 * a).

  Lemma den_pos : 0 < INR n + 1 - 2 * a.
  Proof. apply le_INR in Hn. simpl in Hn. lra. Qed.
  Lemma pos_mono i j : i <= j -> pos i <= pos j.
  Proof. intros H. unfold pos, Rdiv. apply Rmult_le_compat_r; [left; apply Rinv_0_lt_compat, den_pos|lra]. Qed.
  Lemma pos_nonneg i : 1 <= i -> 0 <= pos i.
  Proof. intros H. unfold pos, Rdiv. apply Rmult_le_pos; [lra|left; apply Rinv_0_lt_compat, den_pos]. Qed.

  Definition next_rank (prev : R) (r : nat) : R := prev + (INR n + 1 - prev) / (1 + INR r).
  Lemma next_rank_eq prev r : next_rank prev r = prev * (INR r / (1 + INR r)) + (INR n + 1) / (1 + INR r).
  Proof. unfold next_rank. pose proof (pos_INR r). field. lra. Qed.
  Lemma next_rank_mono p p' r : p' <= p -> next_rank p' r <= next_rank p r.
  Proof.
    intros H. rewrite !next_rank_eq. apply Rplus_le_compat_r, Rmult_le_compat_r; [|assumption].
    pose proof (pos_INR r). apply Rmult_le_pos; [assumption|left; apply Rinv_0_lt_compat; lra].
  Qed.
  Lemma next_rank_ge p r : 0 <= p <= INR n + 1 -> (r <= n)%nat -> p <= next_rank p r <= INR n + 1 /\ 1 <= next_rank p r.
  Proof.
    intros H Hr. apply le_INR in Hr. pose proof (pos_INR r).
    assert (0 <= INR r / (1 + INR r) <= 1) as Hq.
    { split; [apply Rmult_le_pos; [assumption|left; apply Rinv_0_lt_compat; lra]|].
      apply Rmult_le_reg_r with (1 + INR r); [lra|]. unfold Rdiv. rewrite Rmult_assoc, Rinv_l by lra. lra. }
    assert (INR r / (1 + INR r) = 1 - / (1 + INR r)) as Eq by (field; lra).
    assert (0 < / (1 + INR r)) as Hi by (apply Rinv_0_lt_compat; lra).
    assert (1 <= (INR n + 1) / (1 + INR r)) as Hd.
    { apply Rmult_le_reg_r with (1 + INR r); [lra|]. unfold Rdiv. rewrite Rmult_assoc, Rinv_l by lra. lra. }
    rewrite next_rank_eq. unfold Rdiv at 2. unfold Rdiv in Hd. rewrite Eq in *. repeat split; nra.
  Qed.

  Lemma ra_censors z z' rows rows' : censors_more rows rows' -> (length rows <= n)%nat ->
    forall prev prev' cur cur' sf d sf' d',
    prev' <= prev -> 0 <= prev' -> prev <= INR n + 1 -> cur' <= cur ->
    (cur' = pos prev' \/ cur' = 0) ->
    Forall2 (fun e e' => e_est e <= e_est e')
      (ra_loop z rows cur (map pos (rank_loop n prev (failure_reverse_i (map snd rows)))) sf d)
      (ra_loop z' rows' cur' (map pos (rank_loop n prev' (failure_reverse_i (map snd rows')))) sf' d').
  Proof.
    induction 1 as [|[t c] [t' c'] rows rows' [H1 H2] HC IH]; intros Hl prev prev' cur cur' sf d sf' d' P0 P1 P2 Hc Hc'; [constructor|].
    cbn [fst snd length] in *. subst t'. cbn [map fst snd failure_reverse_i ra_loop]. rewrite !map_length, (censors_length rows rows' HC).
    destruct c, c'; try (specialize (H2 eq_refl); discriminate).
    - cbn [rank_loop map hd tl]. fold (next_rank prev (S (length rows))). fold (next_rank prev' (S (length rows))).
      destruct (greenwood z _ _ _) as [sf1 d1]. destruct (greenwood z' _ _ _) as [sf1' d1'].
      pose proof (next_rank_mono prev prev' (S (length rows)) P0) as M.
      destruct (next_rank_ge prev (S (length rows)) ltac:(lra) Hl) as [G1 _].
      destruct (next_rank_ge prev' (S (length rows)) ltac:(lra) Hl) as [G1' _].
      pose proof (pos_mono _ _ M) as M2.
      constructor; [cbn [e_est]; lra|]. apply IH; first [lra|lia|now left].
    - cbn [rank_loop map hd tl]. fold (next_rank prev (S (length rows))).
      destruct (greenwood z _ _ _) as [sf1 d1].
      destruct (next_rank_ge prev (S (length rows)) ltac:(lra) Hl) as [G1 G2].
      assert (cur' <= pos (next_rank prev (S (length rows)))) as M2.
      { destruct Hc' as [->| ->]; [apply pos_mono; lra|now apply pos_nonneg]. }
      constructor; [cbn [e_est]; lra|]. apply IH; first [lra|lia|assumption].
    - constructor; [cbn [e_est]; lra|]. apply IH; first [lra|lia|assumption].
  Qed.
End Ranks.

Lemma kaplan_meier_censors CI CI' rows rows' es es' : censors_more rows rows' ->
  kaplan_meier CI rows = Ok es -> kaplan_meier CI' rows' = Ok es' -> Forall2 (fun e e' => e_est e <= e_est e') es es'.
Proof.
  intros HC H H'. unfold kaplan_meier in *. destruct (np_checks CI _); [|discriminate]. destruct (np_checks CI' _); [|discriminate].
  simpl in *. injection H as <-. injection H' as <-. apply km_censors; [assumption|lra].
Qed.
Lemma nelson_aalen_censors CI CI' rows rows' es es' : censors_more rows rows' ->
  nelson_aalen CI rows = Ok es -> nelson_aalen CI' rows' = Ok es' ->
  Forall2 (fun he he' => fst he' <= fst he /\ e_est (snd he) <= e_est (snd he')) es es'.
Proof.
  intros HC H H'. unfold nelson_aalen in *. destruct (np_checks CI _); [|discriminate]. destruct (np_checks CI' _); [|discriminate].
  simpl in *. injection H as <-. injection H' as <-. apply na_censors; [assumption|lra].
Qed.
Lemma rank_adjustment_censors CI CI' a rows rows' b b' : censors_more rows rows' -> a_value a < 1 ->
  rank_adjustment CI a rows = Ok b -> rank_adjustment CI' a rows' = Ok b' ->
  Forall2 (fun e e' => e_est e <= e_est e') (ra_entries b) (ra_entries b').
Proof.
  intros HC Ha H H'. unfold rank_adjustment in *.
  destruct (np_checks CI _) as [[]|] eqn:E; [|discriminate]. apply np_checks_ok in E as [_ E]. destruct (np_checks CI' _); [|discriminate].
  cbn [bind] in *. destruct (plotting_positions_sorted a rows) as [[x y]|] eqn:P; [|discriminate].
  destruct (plotting_positions_sorted a rows') as [[x' y']|] eqn:P'; [|discriminate].
  cbn [bind fst snd] in *. assert (forall A (u v : A), Ok u = Ok v -> u = v) as OI by (intros A u v HH; now injection HH).
  apply OI in H. apply OI in H'. subst b b'.
  apply sorted_inv in P as (A1 & _ & P). apply sorted_inv in P' as (_ & _ & P').
  apply positions_inv in P as (_ & _ & ->). apply positions_inv in P' as (_ & _ & ->).
  rewrite !map_length, (censors_length _ _ HC).
  pose proof (n_failed_le rows) as L. unfold n_failed in L.
  pose proof (pos_INR (length rows)).
  cbn [ra_build ra_entries]. apply ra_censors; first [lra|assumption|lia|now right].
Qed.
