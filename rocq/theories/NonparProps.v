(** The properties C08-C18 of plotting positions and nonparametric estimators. *)
From Coq Require Import List Arith Reals Bool Permutation Sorted Lra Lia.
From Verif Require Import Base RealFacts Gauss Ext NonparModel NonparSpec
  NonparProofs NonparProofs2 NonparProofs3 NonparProofs4.
Import ListNotations.
Open Scope R_scope.

(** ** C08 Plotting positions are Johnson's adjusted ranks *)
Theorem C08_plotting_positions_johnson : forall f rc a rows x y,
  is_sorting_of (all_rows f rc) rows ->
  plotting_positions_sorted a rows = Ok (x, y) ->
  length x = length f /\ length y = length f /\
  exists rank : nat -> R, rank 0%nat = 0 /\
    forall pre t post, rows = pre ++ (t, true) :: post ->
      let n := INR (length f + length rc) in
      let k := n_failed pre in
      let items_from_here := INR (S (length post)) in
      rank (S k) = rank k + (n + 1 - rank k) / (1 + items_from_here) /\
      nth_error x k = Some t /\
      nth_error y k = Some ((rank (S k) - a_value a) / (n + 1 - 2 * a_value a)).
Proof. exact c08. Qed.
Print Assumptions C08_plotting_positions_johnson.

(** The calculation succeeds for every admissible a. *)
Theorem C08_plotting_positions_succeed : forall f rc a rows,
  is_sorting_of (all_rows f rc) rows -> f <> [] ->
  0 <= a_value a < 1 -> exists x y, plotting_positions_sorted a rows = Ok (x, y).
Proof. exact c08_succeeds. Qed.
Print Assumptions C08_plotting_positions_succeed.

Example C08_example : is_sorting_of (all_rows [5; 1] [3]) [(1, true); (3, false); (5, true)] /\
  a_value None = 3 / 10.
Proof. split; [|reflexivity]. exact sorting_example. Qed.

(** ** C09 Plotting positions are strictly increasing probabilities *)
Theorem C09_plotting_positions_increasing : forall f rc a rows x y,
  is_sorting_of (all_rows f rc) rows -> a_value a < 1 ->
  plotting_positions_sorted a rows = Ok (x, y) ->
  StronglySorted Rlt y /\ Forall (fun p => 0 < p < 1) y.
Proof. exact c09. Qed.
Print Assumptions C09_plotting_positions_increasing.

Example C09_example : exists x y,
  plotting_positions_sorted None [(1, true); (3, false); (5, true)] = Ok (x, y).
Proof. exact positions_example. Qed.

(** ** C10 Plotting positions without censoring *)
Theorem C10_plotting_positions_uncensored : forall f a rows x y,
  is_sorting_of (all_rows f []) rows ->
  plotting_positions_sorted a rows = Ok (x, y) ->
  Permutation f x /\ StronglySorted Rle x /\
  y = map (fun i => (INR i - a_value a) / (INR (length f) + 1 - 2 * a_value a))
        (seq 1 (length f)).
Proof. exact c10. Qed.
Print Assumptions C10_plotting_positions_uncensored.

Example C10_example : is_sorting_of (all_rows [5; 1] []) [(1, true); (5, true)] /\
  exists x y, plotting_positions_sorted None [(1, true); (5, true)] = Ok (x, y).
Proof. exact uncensored_example. Qed.

(** ** C11 Unsorted plotting positions are the sorted ones in the user's order *)
Theorem C11_unsorted_positions : forall f rc a rows x y,
  Permutation (indexed (all_rows f rc)) rows ->
  plotting_positions_unsorted a rows = Ok (x, y) ->
  x = f /\ length y = length f /\
  exists xs ys, plotting_positions_sorted a (map snd rows) = Ok (xs, ys) /\
    forall pre i t post, rows = pre ++ (i, (t, true)) :: post ->
      nth_error f i = Some t /\
      nth_error y i = nth_error ys (n_failed (map snd pre)).
Proof. exact plotting_positions_restores. Qed.
Print Assumptions C11_unsorted_positions.

Example C11_example :
  Permutation (indexed (all_rows [5; 1] [3])) [(1%nat, (1, true)); (2%nat, (3, false)); (0%nat, (5, true))].
Proof. exact indexed_example. Qed.

(** ** C12 Kaplan-Meier is the product limit estimator *)
(** For an order with failures before censored items at equal times, which a stable sort
    gives.  Missing from the full statement: other orders of ties, see the refutation. *)
Theorem C12_kaplan_meier_product_limit_partial : forall f rc CI pre post es t,
  is_sorting_of (all_rows f rc) (pre ++ post) -> failures_first (pre ++ post) ->
  (forall r, In r pre -> fst r <= t) -> (forall r, In r post -> t < fst r) ->
  kaplan_meier CI (pre ++ post) = Ok es ->
  nth (length pre) (1 :: map e_est es) 1 = product_limit (all_rows f rc) t.
Proof. exact (fun f rc CI pre post es t => kaplan_meier_product_limit CI (all_rows f rc) pre post es t). Qed.
Print Assumptions C12_kaplan_meier_product_limit_partial.

(** When no failure coincides with a censored time every sort gives the estimator. *)
Theorem C12_kaplan_meier_product_limit_no_mixed_ties_partial : forall f rc CI pre post es t,
  (forall u, In u f -> ~ In u rc) ->
  is_sorting_of (all_rows f rc) (pre ++ post) ->
  (forall r, In r pre -> fst r <= t) -> (forall r, In r post -> t < fst r) ->
  kaplan_meier CI (pre ++ post) = Ok es ->
  nth (length pre) (1 :: map e_est es) 1 = product_limit (all_rows f rc) t.
Proof. exact c12_no_mixed_ties. Qed.
Print Assumptions C12_kaplan_meier_product_limit_no_mixed_ties_partial.

(** pandas' default sort is unstable, and with a censored item placed before a failure of
    the same time the value is not the product limit. *)
Theorem C12_kaplan_meier_product_limit_refuted : exists f rc CI pre post es t,
  is_sorting_of (all_rows f rc) (pre ++ post) /\
  (forall r, In r pre -> fst r <= t) /\ (forall r, In r post -> t < fst r) /\
  kaplan_meier CI (pre ++ post) = Ok es /\
  nth (length pre) (1 :: map e_est es) 1 <> product_limit (all_rows f rc) t.
Proof. exact c12_refuted. Qed.
Print Assumptions C12_kaplan_meier_product_limit_refuted.

Example C12_example : is_sorting_of (all_rows [5; 1] [3; 1]) ([(1, true); (1, false)] ++ [(3, false); (5, true)]) /\
  failures_first ([(1, true); (1, false)] ++ [(3, false); (5, true)]).
Proof. exact c12_example. Qed.

(** ** C13 Kaplan-Meier reliability is a survival function *)
Theorem C13_kaplan_meier_survival : forall f rc CI rows es,
  is_sorting_of (all_rows f rc) rows -> kaplan_meier CI rows = Ok es ->
  hd_error (st_x (step_arrays es)) = Some 0 /\ hd_error (st_SF (step_arrays es)) = Some 1 /\
  map (fun e => (e_time e, e_code e)) es = rows /\
  non_increasing (1 :: map e_est es) /\ Forall (fun e => 0 <= e_est e <= 1) es /\
  (forall pre t c post, rows = pre ++ (t, c) :: post ->
     (nth (length pre) (map e_est es) 1 = 0 <-> post = [] /\ c = true)).
Proof. exact c13. Qed.
Print Assumptions C13_kaplan_meier_survival.

(** It runs for every confidence level as soon as there are two failures. *)
Theorem C13_kaplan_meier_succeeds : forall f rc CI rows,
  is_sorting_of (all_rows f rc) rows -> 0 <= CI <= 1 -> (2 <= length f)%nat ->
  exists es, kaplan_meier CI rows = Ok es.
Proof. exact c13_succeeds. Qed.
Print Assumptions C13_kaplan_meier_succeeds.

Example C13_example : exists es, kaplan_meier (95 / 100) [(1, true); (3, false); (5, true)] = Ok es.
Proof. exact km_example. Qed.

(** ** C14 Kaplan-Meier equals the empirical survival function without censoring *)
Theorem C14_kaplan_meier_uncensored : forall f CI rows es,
  is_sorting_of (all_rows f []) rows -> kaplan_meier CI rows = Ok es ->
  map e_est es = map (fun i => 1 - INR i / INR (length f)) (seq 1 (length f)).
Proof. exact c14. Qed.
Print Assumptions C14_kaplan_meier_uncensored.

Example C14_example : is_sorting_of (all_rows [5; 1] []) [(1, true); (5, true)] /\
  exists es, kaplan_meier (95 / 100) [(1, true); (5, true)] = Ok es.
Proof. exact c14_example. Qed.

(** ** C15 Kaplan-Meier confidence limits bracket the estimate *)
Theorem C15_kaplan_meier_limits : forall f rc CI rows es,
  is_sorting_of (all_rows f rc) rows -> kaplan_meier CI rows = Ok es ->
  Forall (fun e => brackets (e_lower e) (e_est e) (e_upper e)) es.
Proof. exact c15. Qed.
Print Assumptions C15_kaplan_meier_limits.

Example C15_example : exists es, kaplan_meier (95 / 100) [(1, true); (3, false); (5, true)] = Ok es.
Proof. exact km_example. Qed.

(** ** C16 Kaplan-Meier step arrays are aligned and bracketed *)
(** The arrays have equal length; the limits bracket the estimate at every point but the
    last, and at the last one too when the largest observation is censored. *)
Theorem C16_kaplan_meier_steps_partial : forall f rc CI rows es,
  is_sorting_of (all_rows f rc) rows -> kaplan_meier CI rows = Ok es ->
  let s := step_arrays es in
  length (st_x s) = length (st_SF s) /\ length (st_lower s) = length (st_SF s) /\
  length (st_upper s) = length (st_SF s) /\
  (forall k y lo up,
     (S k < length (st_SF s))%nat \/ snd (last rows (0, true)) = false ->
     nth_error (st_SF s) k = Some y ->
     nth_error (st_lower s) k = Some lo -> nth_error (st_upper s) k = Some up ->
     brackets lo y up).
Proof. exact c16. Qed.
Print Assumptions C16_kaplan_meier_steps_partial.

(** When the largest observation is a failure the last plotted lower limit is the previous
    one and can lie above the reliability 0. *)
Theorem C16_kaplan_meier_steps_refuted : exists f rc rows es k y lo,
  is_sorting_of (all_rows f rc) rows /\ kaplan_meier (95 / 100) rows = Ok es /\
  nth_error (st_SF (step_arrays es)) k = Some y /\
  nth_error (st_lower (step_arrays es)) k = Some (Fin lo) /\ y < lo.
Proof. exact c16_refuted. Qed.
Print Assumptions C16_kaplan_meier_steps_refuted.

Example C16_example : exists es, kaplan_meier (95 / 100) [(1, true); (3, false); (5, true)] = Ok es.
Proof. exact km_example. Qed.

(** ** C17 Nelson-Aalen hazard and reliability *)
Theorem C17_nelson_aalen : forall f rc CI rows hes,
  is_sorting_of (all_rows f rc) rows -> nelson_aalen CI rows = Ok hes ->
  map (fun he => (e_time (snd he), e_code (snd he))) hes = rows /\
  (forall pre r post, rows = pre ++ r :: post ->
     nth (length pre) (map fst hes) 0 = hazard_sum (length post) (pre ++ [r])) /\
  Forall (fun he => e_est (snd he) = exp (- fst he) /\ 0 < e_est (snd he) <= 1) hes /\
  non_increasing (1 :: map (fun he => e_est (snd he)) hes) /\
  forall es, kaplan_meier CI rows = Ok es ->
    Forall2 (fun he e => e_est e <= e_est (snd he)) hes es.
Proof. exact c17. Qed.
Print Assumptions C17_nelson_aalen.

(** Its confidence limits bracket it too, for every positive confidence level. *)
Theorem C17_nelson_aalen_limits : forall f rc CI rows hes,
  is_sorting_of (all_rows f rc) rows -> 0 < CI -> nelson_aalen CI rows = Ok hes ->
  Forall (fun he => brackets (e_lower (snd he)) (e_est (snd he)) (e_upper (snd he))) hes.
Proof. exact c17_limits. Qed.
Print Assumptions C17_nelson_aalen_limits.

Example C17_example : exists hes, nelson_aalen (95 / 100) [(1, true); (3, false); (5, true)] = Ok hes.
Proof. exact na_example. Qed.

(** ** C18 Rank adjustment agrees with the plotting positions *)
Theorem C18_rank_adjustment : forall f rc CI a rows res,
  is_sorting_of (all_rows f rc) rows -> a_value a < 1 -> 0 < CI ->
  rank_adjustment CI a rows = Ok res ->
  exists x y, plotting_positions_sorted a rows = Ok (x, y) /\
  map (fun e => (e_time e, e_code e)) (ra_entries res) = rows /\
  (forall pre t c post, rows = pre ++ (t, c) :: post ->
     nth (length pre) (map e_est (ra_entries res)) 1
     = 1 - nth (n_failed (pre ++ [(t, c)])) (0 :: y) 0) /\
  non_increasing (1 :: map e_est (ra_entries res)) /\
  Forall (fun e => 0 < e_est e <= 1) (ra_entries res) /\
  Forall (fun e => brackets (e_lower e) (e_est e) (e_upper e)) (ra_entries res) /\
  length (ra_x res) = length (ra_SF res) /\
  length (ra_lower res) = length (ra_SF res) /\ length (ra_upper res) = length (ra_SF res) /\
  forall k s lo up, nth_error (ra_SF res) k = Some s -> nth_error (ra_lower res) k = Some lo ->
    nth_error (ra_upper res) k = Some up -> brackets lo s up.
Proof. exact c18. Qed.
Print Assumptions C18_rank_adjustment.

Example C18_example : exists res,
  rank_adjustment (95 / 100) None [(1, true); (3, false); (5, true)] = Ok res.
Proof. exact ra_example. Qed.
