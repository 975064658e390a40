(** C08-C18 in the form stated in NonparProps.v, and the concrete examples. *)
From Coq Require Import List Arith Reals Bool Permutation Sorted Lra Lia.
From Verif Require Import Base RealFacts Gauss Ext NonparModel NonparSpec
  NonparProofs NonparProofs2 NonparProofs3.
Import ListNotations.
Open Scope R_scope.

Lemma n_failed_perm d1 d2 : Permutation d1 d2 -> n_failed d1 = n_failed d2.
Proof. intros P. apply Permutation_length. now apply filter_perm. Qed.

Lemma n_failed_all f rc : n_failed (all_rows f rc) = length f.
Proof.
  unfold n_failed, all_rows. rewrite filter_app, app_length.
  rewrite filter_all, filter_none, map_length; [simpl; lia| |];
    intros r Hr; apply in_map_iff in Hr as (t & <- & _); reflexivity.
Qed.

Lemma sorting_failed f rc rows : is_sorting_of (all_rows f rc) rows -> n_failed rows = length f.
Proof. intros [P _]. rewrite <- (n_failed_perm _ _ P). apply n_failed_all. Qed.

Lemma sorting_length f rc rows : is_sorting_of (all_rows f rc) rows ->
  length rows = (length f + length rc)%nat.
Proof.
  intros [P _]. rewrite <- (Permutation_length P). unfold all_rows.
  now rewrite app_length, !map_length.
Qed.

Lemma c08 : forall f rc a rows x y,
  is_sorting_of (all_rows f rc) rows ->
  plotting_positions_sorted a rows = Ok (x, y) ->
  length x = length f /\ length y = length f /\
  exists rank : nat -> R, rank 0%nat = 0 /\
    forall pre t post, rows = pre ++ (t, true) :: post ->
      let n := INR (length f + length rc) in
      let k := n_failed pre in
      let items_from_here := INR (S (length post)) in
      rank (S k) = rank k + (n + 1 - rank k) / (1 + items_from_here) /\
      nth_error x k = Some t /\
      nth_error y k = Some ((rank (S k) - a_value a) / (n + 1 - 2 * a_value a)).
Proof.
  intros f rc a rows x y HS E. destruct (plotting_positions_johnson _ _ _ _ E) as (Lx & Ly & rank & R0 & HR).
  rewrite (sorting_failed _ _ _ HS) in *. rewrite <- (sorting_length _ _ _ HS).
  split; [assumption|]. split; [assumption|]. exists rank. auto.
Qed.

Lemma c08_succeeds : forall f rc a rows,
  is_sorting_of (all_rows f rc) rows -> f <> [] ->
  0 <= a_value a < 1 -> exists x y, plotting_positions_sorted a rows = Ok (x, y).
Proof.
  intros f rc a rows HS Hf Ha. apply plotting_positions_succeeds; [lra| |lra || (left; lra)].
  rewrite (sorting_failed _ _ _ HS). destruct f; [congruence|simpl; lia].
Qed.

Lemma c09 : forall f rc a rows x y,
  is_sorting_of (all_rows f rc) rows -> a_value a < 1 ->
  plotting_positions_sorted a rows = Ok (x, y) ->
  StronglySorted Rlt y /\ Forall (fun p => 0 < p < 1) y.
Proof. intros f rc a rows x y _. apply plotting_positions_range. Qed.

Lemma all_rows_nil f : all_rows f [] = map (fun t => (t, true)) f.
Proof. apply app_nil_r. Qed.

Lemma uncensored_codes f rows : is_sorting_of (all_rows f []) rows ->
  forall r, In r rows -> snd r = true.
Proof.
  intros [P _] r Hr. apply (Permutation_in _ (Permutation_sym P)) in Hr. rewrite all_rows_nil in Hr.
  apply in_map_iff in Hr as (t & <- & _). reflexivity.
Qed.

Lemma c10 : forall f a rows x y,
  is_sorting_of (all_rows f []) rows ->
  plotting_positions_sorted a rows = Ok (x, y) ->
  Permutation f x /\ StronglySorted Rle x /\
  y = map (fun i => (INR i - a_value a) / (INR (length f) + 1 - 2 * a_value a))
        (seq 1 (length f)).
Proof.
  intros f a rows x y HS E.
  destruct (plotting_positions_uncensored _ _ _ _ (uncensored_codes _ _ HS) E) as [-> Ey].
  rewrite (sorting_length _ _ _ HS) in Ey. cbn [length] in Ey. rewrite Nat.add_0_r in Ey.
  destruct HS as [P S]. split; [|split; [|exact Ey]].
  - apply (Permutation_map fst) in P. rewrite all_rows_nil, map_map, map_id in P. exact P.
  - eapply StronglySorted_map; [|exact S]. auto.
Qed.

Lemma no_mixed_ties_first f rc rows : (forall u, In u f -> ~ In u rc) ->
  is_sorting_of (all_rows f rc) rows -> failures_first rows.
Proof.
  intros H [P _] pre t post E Hin.
  assert (forall c, In (t, c) rows -> In t (if c then f else rc)) as HI.
  { intros c Hc. apply (Permutation_in _ (Permutation_sym P)) in Hc. unfold all_rows in Hc.
    apply in_app_or in Hc as [Hc|Hc]; apply in_map_iff in Hc as (u & Eu & Hu); inversion Eu; subst; assumption. }
  apply (H t).
  - apply (HI true). rewrite E. apply in_or_app. right. now right.
  - apply (HI false). rewrite E. apply in_or_app. right. now left.
Qed.

Lemma c12_no_mixed_ties : forall f rc CI pre post es t,
  (forall u, In u f -> ~ In u rc) ->
  is_sorting_of (all_rows f rc) (pre ++ post) ->
  (forall r, In r pre -> fst r <= t) -> (forall r, In r post -> t < fst r) ->
  kaplan_meier CI (pre ++ post) = Ok es ->
  nth (length pre) (1 :: map e_est es) 1 = product_limit (all_rows f rc) t.
Proof.
  intros. eapply kaplan_meier_product_limit; eauto using no_mixed_ties_first.
Qed.

Lemma kaplan_meier_succeeds CI rows : 0 <= CI <= 1 -> (2 <= n_failed rows)%nat ->
  kaplan_meier CI rows = Ok (km_loop (z_of_CI CI) rows 1 (Fin 0) (Fin 0)).
Proof.
  intros H1 H2. unfold kaplan_meier. fold (n_failed rows).
  rewrite (proj2 (np_checks_ok CI (n_failed rows)) (conj H1 H2)). reflexivity.
Qed.

Ltac sort_tac :=
  repeat (constructor; [|repeat (constructor; [cbn [fst]; lra|]); constructor]); constructor.

Lemma product_limit_example : product_limit (all_rows [1; 2] [1]) 1 = 2 / 3.
Proof.
  unfold product_limit, all_rows. cbn [map app filter snd fst].
  destruct (Rle_dec 1 1); [|lra]. destruct (Rle_dec 2 1); [lra|]. cbn [nodup].
  destruct (in_dec Req_EM_T 1 []) as [[]|_]. cbn [map]. unfold deaths, at_risk. cbn [filter snd fst andb].
  destruct (Req_EM_T 1 1); [|lra]. destruct (Req_EM_T 2 1); [lra|].
  destruct (Rle_dec 1 1); [|lra]. destruct (Rle_dec 1 2); [|lra].
  simpl. lra.
Qed.

Lemma c12_refuted : exists f rc CI pre post es t,
  is_sorting_of (all_rows f rc) (pre ++ post) /\
  (forall r, In r pre -> fst r <= t) /\ (forall r, In r post -> t < fst r) /\
  kaplan_meier CI (pre ++ post) = Ok es /\
  nth (length pre) (1 :: map e_est es) 1 <> product_limit (all_rows f rc) t.
Proof.
  exists [1; 2], [1], (95 / 100), [(1, false); (1, true)], [(2, true)].
  eexists. exists 1.
  split; [|split; [|split; [|split]]].
  - split.
    + apply Permutation_trans with ((1, true) :: (1, false) :: [(2, true)]); [|apply perm_swap].
      cbn. constructor. apply perm_swap.
    + cbn. sort_tac.
  - cbn. intros r [<-|[<-|[]]]; simpl; lra.
  - cbn. intros r [<-|[]]; simpl; lra.
  - apply kaplan_meier_succeeds; [lra|]. cbn. lia.
  - rewrite km_loop_est, product_limit_example. cbn. lra.
Qed.

Lemma c12_example : is_sorting_of (all_rows [5; 1] [3; 1]) ([(1, true); (1, false)] ++ [(3, false); (5, true)]) /\
  failures_first ([(1, true); (1, false)] ++ [(3, false); (5, true)]).
Proof.
  split; [split|].
  - cbn. apply Permutation_trans with [(1, true); (5, true); (3, false); (1, false)]; [apply perm_swap|].
    constructor. apply (Permutation_rev [(5, true); (3, false); (1, false)]).
  - cbn. sort_tac.
  - intros pre t post E Hin. cbn in E.
    destruct pre as [|a [|b [|c [|d [|e pre]]]]]; cbn in E; inversion E; subst; cbn in Hin;
      repeat (destruct Hin as [Hin|Hin]); try (inversion Hin; lra); try contradiction.
Qed.

Lemma c13 : forall f rc CI rows es,
  is_sorting_of (all_rows f rc) rows -> kaplan_meier CI rows = Ok es ->
  hd_error (st_x (step_arrays es)) = Some 0 /\ hd_error (st_SF (step_arrays es)) = Some 1 /\
  map (fun e => (e_time e, e_code e)) es = rows /\
  non_increasing (1 :: map e_est es) /\ Forall (fun e => 0 <= e_est e <= 1) es /\
  (forall pre t c post, rows = pre ++ (t, c) :: post ->
     (nth (length pre) (map e_est es) 1 = 0 <-> post = [] /\ c = true)).
Proof.
  intros f rc CI rows es _ H. destruct (kaplan_meier_steps _ _ _ H) as (_ & _ & _ & X & Y & _).
  split; [assumption|]. split; [assumption|]. split; [apply (kaplan_meier_ok _ _ _ H)|].
  exact (kaplan_meier_survival _ _ _ H).
Qed.

Lemma c13_succeeds : forall f rc CI rows,
  is_sorting_of (all_rows f rc) rows -> 0 <= CI <= 1 -> (2 <= length f)%nat ->
  exists es, kaplan_meier CI rows = Ok es.
Proof.
  intros f rc CI rows HS HC Hf. eexists. apply kaplan_meier_succeeds; [assumption|].
  now rewrite (sorting_failed _ _ _ HS).
Qed.

Lemma c14 : forall f CI rows es,
  is_sorting_of (all_rows f []) rows -> kaplan_meier CI rows = Ok es ->
  map e_est es = map (fun i => 1 - INR i / INR (length f)) (seq 1 (length f)).
Proof.
  intros f CI rows es HS H.
  rewrite (kaplan_meier_uncensored _ _ _ H (uncensored_codes _ _ HS)).
  rewrite (sorting_length _ _ _ HS). cbn [length]. now rewrite Nat.add_0_r.
Qed.

Lemma c15 : forall f rc CI rows es,
  is_sorting_of (all_rows f rc) rows -> kaplan_meier CI rows = Ok es ->
  Forall (fun e => brackets (e_lower e) (e_est e) (e_upper e)) es.
Proof. intros f rc CI rows es _ H. apply (kaplan_meier_ok _ _ _ H). Qed.

Lemma c16 : forall f rc CI rows es,
  is_sorting_of (all_rows f rc) rows -> kaplan_meier CI rows = Ok es ->
  let s := step_arrays es in
  length (st_x s) = length (st_SF s) /\ length (st_lower s) = length (st_SF s) /\
  length (st_upper s) = length (st_SF s) /\
  (forall k y lo up,
     (S k < length (st_SF s))%nat \/ snd (last rows (0, true)) = false ->
     nth_error (st_SF s) k = Some y ->
     nth_error (st_lower s) k = Some lo -> nth_error (st_upper s) k = Some up ->
     brackets lo y up).
Proof.
  intros f rc CI rows es _ H. destruct (kaplan_meier_steps _ _ _ H) as (A & B & C & _ & _ & D).
  cbv zeta. auto.
Qed.

Lemma c16_refuted : exists f rc rows es k y lo,
  is_sorting_of (all_rows f rc) rows /\ kaplan_meier (95 / 100) rows = Ok es /\
  nth_error (st_SF (step_arrays es)) k = Some y /\
  nth_error (st_lower (step_arrays es)) k = Some (Fin lo) /\ y < lo.
Proof.
  set (z := norm_ppf (1 - (1 - 95 / 100) / 2)).
  assert (0 < z <= 3) as Hz.
  { split; [apply norm_ppf_pos; lra|]. apply Phi_le_iff. unfold z. rewrite Phi_norm_ppf by lra.
    pose proof Phi_3. lra. }
  set (d := sqrt (/ 12 * (9 / 16)) * z).
  assert (0 <= d < 3 / 4) as Hd.
  { unfold d. pose proof (sqrt_pos (/ 12 * (9 / 16))) as Hs.
    assert (sqrt (/ 12 * (9 / 16)) < 1 / 4).
    { rewrite <- (sqrt_square (1 / 4)) by lra. apply sqrt_lt_1; lra. }
    nra. }
  exists [1; 10], [5; 5], [(1, true); (5, false); (5, false); (10, true)].
  eexists. exists 6%nat, 0, (3 / 4 - d).
  split; [|split; [apply kaplan_meier_succeeds; [lra|cbn; lia]|]].
  { split; [|cbn; sort_tac]. cbn. constructor.
    apply (Permutation_cons_append [(5, false); (5, false)] (10, true)). }
  assert (z_of_CI (95 / 100) = Fin z) as ->.
  { unfold z_of_CI. destruct (Rlt_dec (95 / 100) 1); [reflexivity|lra]. }
  assert (forall est s, greenwood (Fin z) 4 est (Fin s) =
     (Fin (s + / 12), if Rlt_dec 0 (est * est) then Fin (sqrt ((s + / 12) * (est * est)) * z) else Fin 0)) as G4.
  { intros. unfold greenwood, einv. replace (INR 4 * (INR 4 - 1)) with 12 by (simpl; lra).
    destruct (Req_EM_T 12 0); [lra|]. reflexivity. }
  cbn [km_loop length]. rewrite G4.
  replace ((INR 4 - NonparModel.code true) / INR 4 * 1) with (3 / 4) by (simpl; lra).
  destruct (Rlt_dec 0 (3 / 4 * (3 / 4))); [|lra].
  replace (sqrt ((0 + / 12) * (3 / 4 * (3 / 4))) * z) with d.
  2:{ unfold d. f_equal. f_equal. lra. }
  replace ((INR 3 - NonparModel.code false) / INR 3 * (3 / 4)) with (3 / 4) by (simpl; lra).
  replace ((INR 2 - NonparModel.code false) / INR 2 * (3 / 4)) with (3 / 4) by (simpl; lra).
  replace ((INR 1 - NonparModel.code true) / INR 1 * (3 / 4)) with 0 by (simpl; lra).
  destruct (greenwood (Fin z) 1 0 (Fin (0 + / 12))) as [s' d'].
  unfold step_arrays, st_SF, st_lower. cbn [e_code step_loop e_est].
  destruct (Req_EM_T (3 / 4) (3 / 4)); [|lra]. destruct (Req_EM_T (3 / 4) 0); [lra|].
  cbn [step_append app fst snd nth_error last e_est e_lower clip_lower].
  destruct (Rlt_dec (3 / 4 - d) 0); [lra|]. repeat split; lra.
Qed.

Lemma c17 : forall f rc CI rows hes,
  is_sorting_of (all_rows f rc) rows -> nelson_aalen CI rows = Ok hes ->
  map (fun he => (e_time (snd he), e_code (snd he))) hes = rows /\
  (forall pre r post, rows = pre ++ r :: post ->
     nth (length pre) (map fst hes) 0 = hazard_sum (length post) (pre ++ [r])) /\
  Forall (fun he => e_est (snd he) = exp (- fst he) /\ 0 < e_est (snd he) <= 1) hes /\
  non_increasing (1 :: map (fun he => e_est (snd he)) hes) /\
  forall es, kaplan_meier CI rows = Ok es ->
    Forall2 (fun he e => e_est e <= e_est (snd he)) hes es.
Proof.
  intros f rc CI rows hes _ H. destruct (nelson_aalen_spec _ _ _ H) as (A & B & C & D & _).
  repeat (split; [assumption|]). intros es K. exact (nelson_aalen_ge_km _ _ _ _ _ H K).
Qed.

Lemma c17_limits : forall f rc CI rows hes,
  is_sorting_of (all_rows f rc) rows -> 0 < CI -> nelson_aalen CI rows = Ok hes ->
  Forall (fun he => brackets (e_lower (snd he)) (e_est (snd he)) (e_upper (snd he))) hes.
Proof.
  intros f rc CI rows hes _ HC H. destruct (nelson_aalen_spec _ _ _ H) as (_ & _ & _ & _ & E). exact (E HC).
Qed.

Lemma c18 : forall f rc CI a rows res,
  is_sorting_of (all_rows f rc) rows -> a_value a < 1 -> 0 < CI ->
  rank_adjustment CI a rows = Ok res ->
  exists x y, plotting_positions_sorted a rows = Ok (x, y) /\
  map (fun e => (e_time e, e_code e)) (ra_entries res) = rows /\
  (forall pre t c post, rows = pre ++ (t, c) :: post ->
     nth (length pre) (map e_est (ra_entries res)) 1
     = 1 - nth (n_failed (pre ++ [(t, c)])) (0 :: y) 0) /\
  non_increasing (1 :: map e_est (ra_entries res)) /\
  Forall (fun e => 0 < e_est e <= 1) (ra_entries res) /\
  Forall (fun e => brackets (e_lower e) (e_est e) (e_upper e)) (ra_entries res) /\
  length (ra_x res) = length (ra_SF res) /\
  length (ra_lower res) = length (ra_SF res) /\ length (ra_upper res) = length (ra_SF res) /\
  forall k s lo up, nth_error (ra_SF res) k = Some s -> nth_error (ra_lower res) k = Some lo ->
    nth_error (ra_upper res) k = Some up -> brackets lo s up.
Proof.
  intros f rc CI a rows res _ Ha HC H.
  destruct (rank_adjustment_spec _ _ _ _ Ha H) as (x & y & A & B & C & D & E & F & G).
  destruct (G HC) as [G1 G2]. exists x, y. destruct (Forall3_length _ _ _ _ G2) as [L1 L2].
  repeat (split; [assumption|]). split; [auto|]. split; [auto|].
  exact (Forall3_nth _ _ _ _ G2).
Qed.

(** * Examples *)
Lemma sorting_example : is_sorting_of (all_rows [5; 1] [3]) [(1, true); (3, false); (5, true)].
Proof.
  split; [|sort_tac]. cbn.
  apply Permutation_trans with [(1, true); (5, true); (3, false)]; [apply perm_swap|].
  constructor. apply perm_swap.
Qed.

Lemma positions_example : exists x y,
  plotting_positions_sorted None [(1, true); (3, false); (5, true)] = Ok (x, y).
Proof. apply plotting_positions_succeeds; [simpl; lra|cbn; lia|left; simpl; lra]. Qed.

Lemma uncensored_example : is_sorting_of (all_rows [5; 1] []) [(1, true); (5, true)] /\
  exists x y, plotting_positions_sorted None [(1, true); (5, true)] = Ok (x, y).
Proof.
  split; [split; [cbn; apply perm_swap|sort_tac]|].
  apply plotting_positions_succeeds; [simpl; lra|cbn; lia|left; simpl; lra].
Qed.

Lemma indexed_example :
  Permutation (indexed (all_rows [5; 1] [3])) [(1%nat, (1, true)); (2%nat, (3, false)); (0%nat, (5, true))].
Proof.
  cbn. apply (Permutation_cons_append [(1%nat, (1, true)); (2%nat, (3, false))] (0%nat, (5, true))).
Qed.

Lemma km_example : exists es, kaplan_meier (95 / 100) [(1, true); (3, false); (5, true)] = Ok es.
Proof. eexists. apply kaplan_meier_succeeds; [lra|cbn; lia]. Qed.

Lemma c14_example : is_sorting_of (all_rows [5; 1] []) [(1, true); (5, true)] /\
  exists es, kaplan_meier (95 / 100) [(1, true); (5, true)] = Ok es.
Proof.
  split; [split; [cbn; apply perm_swap|sort_tac]|].
  eexists. apply kaplan_meier_succeeds; [lra|cbn; lia].
Qed.

Lemma na_example : exists hes, nelson_aalen (95 / 100) [(1, true); (3, false); (5, true)] = Ok hes.
Proof.
  unfold nelson_aalen. rewrite (proj2 (np_checks_ok (95 / 100) _)) by (split; [lra|cbn; lia]).
  eexists. reflexivity.
Qed.

Lemma ra_example : exists res,
  rank_adjustment (95 / 100) None [(1, true); (3, false); (5, true)] = Ok res.
Proof.
  unfold rank_adjustment. rewrite (proj2 (np_checks_ok (95 / 100) _)) by (split; [lra|cbn; lia]).
  cbn [bind]. destruct positions_example as (x & y & E). rewrite E. eexists. reflexivity.
Qed.
