(** Properties C46-C52 of the standard distributions. *)
From Coquelicot Require Import Coquelicot.
From Coq Require Import List Arith Reals Lra Lia Bool Sorting.Sorted.
From Verif Require Import Base RealFacts Gauss Improper Ext DistModel DistSpec DistIntegrals DistProofs DistProofs2 DistProofs3 DistProofs4 PoFProofs PoFProofs2 PoFProofs3.
Import ListNotations.
Open Scope R_scope.

Lemma Ok_inj {A} (x y : A) : Ok x = Ok y -> x = y.
Proof. intros H. now injection H. Qed.

Lemma ediv_quotient p s : 0 < s -> is_quotient (ediv p (Fin s)) p s.
Proof.
  intros H. destruct p; simpl; [|destruct (Rle_dec 0 s); [reflexivity|lra]|reflexivity].
  destruct (Req_EM_T s 0); [lra|reflexivity].
Qed.

(** ** C46 *)
Lemma cdf_sf_arrays d X F S : valid d -> CDF d X = Ok F -> SF d X = Ok S ->
  length F = length X /\ length S = length X /\ forall i, (i < length X)%nat -> nth i F 0 + nth i S 0 = 1.
Proof.
  intros Hv HC HS. unfold CDF, SF in *. destruct (array_ok d X); [|discriminate]. apply Ok_inj in HC, HS. subst.
  rewrite !map_length. repeat split. intros i Hi.
  rewrite (nth_indep _ 0 (cdf d 0)), (nth_indep (map (sf d) X) 0 (sf d 0)) by now rewrite map_length.
  rewrite !map_nth. rewrite (F_sf d (all_facts d Hv)). ring.
Qed.
Theorem C46_cdf_sf_complementary : forall d X F S, valid d -> CDF d X = Ok F -> SF d X = Ok S ->
  length F = length X /\ length S = length X /\ forall i, (i < length X)%nat -> nth i F 0 + nth i S 0 = 1.
Proof. exact cdf_sf_arrays. Qed.
Print Assumptions C46_cdf_sf_complementary.

Lemma hazards_arrays d X P S H C : valid d -> PDF d X = Ok P -> SF d X = Ok S -> HF d X = Ok H -> CHF d X = Ok C ->
  cut_off_safe d X -> length H = length X /\ length C = length X /\ forall i, (i < length X)%nat -> 0 < nth i S 0 ->
    nth i C NaN = Fin (- ln (nth i S 0)) /\
    (cut_off_family d = false \/ location d = 0 \/ nth i X 0 <> location d -> is_quotient (nth i H NaN) (nth i P NaN) (nth i S 0)).
Proof.
  intros Hv HP HS HH HC Hs. unfold PDF, SF, HF, CHF in *. destruct (array_ok d X) eqn:Hok; [|discriminate].
  apply Ok_inj in HP, HS, HH, HC. subst. rewrite !thresholded_length. repeat split.
  - intros. rewrite (nth_indep (map (sf d) X) 0 (sf d 0)) in * by now rewrite map_length. rewrite map_nth in *. now apply CHF_entry.
  - intros Hne. rewrite (nth_indep (map (sf d) X) 0 (sf d 0)) in * by now rewrite map_length. rewrite map_nth in *.
    rewrite (nth_indep (map (pdf d) X) NaN (pdf d 0)) by now rewrite map_length. rewrite map_nth.
    rewrite HF_entry by assumption. now apply ediv_quotient.
Qed.
Theorem C46_hazards_partial : forall d X P S H C, valid d -> PDF d X = Ok P -> SF d X = Ok S -> HF d X = Ok H -> CHF d X = Ok C ->
  cut_off_safe d X -> length H = length X /\ length C = length X /\ forall i, (i < length X)%nat -> 0 < nth i S 0 ->
    nth i C NaN = Fin (- ln (nth i S 0)) /\
    (cut_off_family d = false \/ location d = 0 \/ nth i X 0 <> location d -> is_quotient (nth i H NaN) (nth i P NaN) (nth i S 0)).
Proof. exact hazards_arrays. Qed.
Print Assumptions C46_hazards_partial.

(** Every increasing array is safe, and the methods succeed on it. *)
Lemma sorted_safe d X : StronglySorted Rle X -> cut_off_safe d X.
Proof. intros H. right. right. now apply sorted_below_first. Qed.
Theorem C46_increasing_arrays_are_safe : forall d X, StronglySorted Rle X -> cut_off_safe d X.
Proof. exact sorted_safe. Qed.
Print Assumptions C46_increasing_arrays_are_safe.
Example C46_case : valid (Weibull 2 3 1) /\ (exists H, HF (Weibull 2 3 1) [0; 3] = Ok H) /\ StronglySorted Rle [0; 3].
Proof.
  split; [simpl; lra|]. split; [|repeat constructor; lra]. unfold HF, array_ok, Rltb'. simpl.
  destruct (Rlt_dec 0 0); [lra|]. destruct (Rlt_dec 3 0); [lra|]. simpl. eauto.
Qed.

(** At the location itself the hazard is set to zero although PDF/SF is not. *)
Lemma hazard_at_location : exists d x p s h, valid d /\ PDF d [x] = Ok [Fin p] /\ SF d [x] = Ok [s] /\ HF d [x] = Ok [Fin h] /\ 0 < s /\ h <> p / s.
Proof.
  exists (Exponential 1 1), 1, 1, 1, 0.
  assert (array_ok (Exponential 1 1) [1] = true) as E.
  { unfold array_ok, Rltb'. simpl. destruct (Rlt_dec 1 0); [lra|reflexivity]. }
  unfold PDF, SF, HF. rewrite E. cbn [map pdf sf hf_formula thresholded zeroised]. cbv zeta.
  replace ((1 - 1) / (1 / 1)) with 0 by field. unfold on_pos, zeroise_below_gamma. cbn [zero_prefix].
  destruct (Rlt_dec 0 0); [lra|]. destruct (Rlt_dec 0 1); [|lra]. destruct (Rlt_dec 1 1); [lra|].
  repeat split; try lra; try (simpl; lra). rewrite Ropp_0, exp_0. do 3 f_equal. field.
Qed.
Theorem C46_hazards_refuted : exists d x p s h, valid d /\ PDF d [x] = Ok [Fin p] /\ SF d [x] = Ok [s] /\ HF d [x] = Ok [Fin h] /\ 0 < s /\ h <> p / s.
Proof. exact hazard_at_location. Qed.
Print Assumptions C46_hazards_refuted.

(** ** C47 *)
Lemma inside_array_ok d x : valid d -> inside d x -> array_ok d [x] = true.
Proof.
  intros Hv [A B]. unfold array_ok, Rltb'. destruct d; simpl in *; try reflexivity;
    repeat (match goal with |- context [Rlt_dec ?u ?v] => destruct (Rlt_dec u v); try lra end); reflexivity.
Qed.
Lemma pdf_derivative d x : valid d -> inside d x -> exists v, PDF d [x] = Ok [Fin v] /\ CDF d [x] = Ok [cdf d x] /\ 0 < v /\ is_derive (cdf d) x v.
Proof.
  intros Hv Hi. destruct (F_der d (all_facts d Hv) x Hi) as (v & E & P & D). exists v. unfold PDF, CDF. rewrite inside_array_ok by assumption.
  simpl. rewrite E. split; [reflexivity|]. split; [reflexivity|]. split; assumption.
Qed.
Theorem C47_pdf_is_derivative_of_cdf : forall d x, valid d -> inside d x ->
  exists v, PDF d [x] = Ok [Fin v] /\ CDF d [x] = Ok [cdf d x] /\ 0 < v /\ is_derive (cdf d) x v.
Proof. exact pdf_derivative. Qed.
Print Assumptions C47_pdf_is_derivative_of_cdf.
(** Outside the support the density is zero. *)
Lemma pdf_mass d : valid d ->
  (forall a b, inside d a -> inside d b -> a <= b ->
     is_RInt (fun x => match pdf d x with Fin v => v | _ => 0 end) a b (cdf d b - cdf d a)) /\
  (forall e, 0 < e -> exists a b, inside d a /\ inside d b /\ a < b /\ 1 - e < cdf d b - cdf d a).
Proof.
  intros Hv. split; [intros; now apply pdf_integrates|]. intros e He. destruct (cdf_close d (e / 2) Hv ltac:(lra)) as (a & b & Ia & Ib & L & A & B).
  exists a, b. split; [exact Ia|]. split; [exact Ib|]. split; [exact L|]. lra.
Qed.
Theorem C47_pdf_integrates_to_one : forall d, valid d ->
  (forall a b, inside d a -> inside d b -> a <= b ->
     is_RInt (fun x => match pdf d x with Fin v => v | _ => 0 end) a b (cdf d b - cdf d a)) /\
  (forall e, 0 < e -> exists a b, inside d a /\ inside d b /\ a < b /\ 1 - e < cdf d b - cdf d a).
Proof. exact pdf_mass. Qed.
Print Assumptions C47_pdf_integrates_to_one.

Theorem C47_pdf_zero_outside : forall d (x : R), valid d -> Rbar_lt x (supp_lo d) \/ Rbar_lt (supp_hi d) x -> pdf d x = Fin 0.
Proof. exact (fun d x Hv => F_out d (all_facts d Hv) x). Qed.
Print Assumptions C47_pdf_zero_outside.
Example C47_case : valid (Gamma 2 3 1) /\ inside (Gamma 2 3 1) 4 /\ valid (Beta 2 3) /\ inside (Beta 2 3) (1 / 2).
Proof. repeat split; simpl; lra. Qed.

(** ** C48 *)
Theorem C48_cdf_distribution_function : forall d, valid d -> distribution_function (cdf d).
Proof. exact cdf_is_df. Qed.
Print Assumptions C48_cdf_distribution_function.
(** CDF returns these values, one for each entry of the array. *)
Theorem C48_cdf_entries : forall d X F, CDF d X = Ok F -> F = map (cdf d) X.
Proof. intros d X F H. unfold CDF in H. destruct (array_ok d X); [|discriminate]. now injection H as <-. Qed.
Print Assumptions C48_cdf_entries.
Example C48_case : valid (Loglogistic 2 (1 / 2) 1).
Proof. simpl. lra. Qed.

(** ** C49 *)
Theorem C49_quantile_inverts_cdf : forall d q, valid d -> 0 < q < 1 -> exists x, quantile d q = Ok x /\ inside d x /\ cdf d x = q.
Proof. exact (fun d q Hv => quantile_ok d Hv q). Qed.
Print Assumptions C49_quantile_inverts_cdf.
Theorem C49_inverse_SF_inverts_sf : forall d q, valid d -> 0 < q < 1 -> exists x, inverse_SF d q = Ok x /\ inside d x /\ sf d x = q.
Proof. exact (fun d q Hv => inverse_SF_ok d Hv q). Qed.
Print Assumptions C49_inverse_SF_inverts_sf.
Theorem C49_cdf_inverts_quantile : forall d x, valid d -> inside d x -> quantile d (cdf d x) = Ok x /\ inverse_SF d (sf d x) = Ok x.
Proof. exact (fun d x Hv Hi => conj (quantile_cdf d Hv x Hi) (inverse_SF_sf d Hv x Hi)). Qed.
Print Assumptions C49_cdf_inverts_quantile.
Theorem C49_out_of_range : forall d q, q < 0 \/ 1 < q -> quantile d q = Err ValueError /\ inverse_SF d q = Err ValueError.
Proof. exact quantile_bad. Qed.
Print Assumptions C49_out_of_range.
Lemma quantile_lists d qs : valid d ->
  ((exists q, In q qs /\ (q < 0 \/ 1 < q)) -> quantile_list d qs = Err ValueError /\ inverse_SF_list d qs = Err ValueError) /\
  (qs <> [] -> (forall q, In q qs -> 0 < q < 1) -> exists xs ys, quantile_list d qs = Ok xs /\ inverse_SF_list d qs = Ok ys /\
    Forall2 (fun q x => quantile d q = Ok x) qs xs /\ Forall2 (fun q y => inverse_SF d q = Ok y) qs ys).
Proof.
  intros Hv. split; [apply quantile_list_bad|]. intros Hne Hq. exists (map (ppf d) qs), (map (isf d) qs).
  destruct (quantile_list_good d qs Hne) as [A B]; [intros q H; specialize (Hq q H); lra|]. split; [exact A|]. split; [exact B|]. clear A B Hne.
  split; (induction qs as [|q qs IH]; [constructor|]; constructor; [|apply IH; intros; apply Hq; now right]);
    specialize (Hq q (or_introl eq_refl)); unfold quantile, inverse_SF; destruct (Rlt_dec q 0); try lra; destruct (Rlt_dec 1 q); try lra; reflexivity.
Qed.
Theorem C49_lists : forall d qs, valid d ->
  ((exists q, In q qs /\ (q < 0 \/ 1 < q)) -> quantile_list d qs = Err ValueError /\ inverse_SF_list d qs = Err ValueError) /\
  (qs <> [] -> (forall q, In q qs -> 0 < q < 1) -> exists xs ys, quantile_list d qs = Ok xs /\ inverse_SF_list d qs = Ok ys /\
    Forall2 (fun q x => quantile d q = Ok x) qs xs /\ Forall2 (fun q y => inverse_SF d q = Ok y) qs ys).
Proof. exact quantile_lists. Qed.
Print Assumptions C49_lists.
Example C49_case : valid (Beta 2 3) /\ inside (Beta 2 3) (1 / 3) /\ 0 < 1 / 4 < 1.
Proof. repeat split; simpl; lra. Qed.

(** ** C50 *)
Theorem C50_mode_maximises_pdf : forall d m, valid d -> mode d = Some m -> forall x, ext_le (pdf d x) (pdf d m).
Proof. exact mode_max. Qed.
Print Assumptions C50_mode_maximises_pdf.
Theorem C50_median_halves_cdf : forall d, valid d -> cdf d (median d) = 1 / 2.
Proof. exact median_half. Qed.
Print Assumptions C50_median_halves_cdf.
(** A mode is reported except for a Beta distribution with alpha or beta at most 1. *)
Lemma mode_reported d : (exists m, mode d = Some m) \/ exists a b, d = Beta a b /\ (a <= 1 \/ b <= 1).
Proof.
  destruct d; cbn [mode]; try (left; eauto; fail). destruct (Rlt_dec 1 alpha); [|right; do 2 eexists; split; [reflexivity|lra]].
  destruct (Rlt_dec 1 beta); [left; eauto|right; do 2 eexists; split; [reflexivity|lra]].
Qed.
Theorem C50_mode_reported : forall d, (exists m, mode d = Some m) \/ exists a b, d = Beta a b /\ (a <= 1 \/ b <= 1).
Proof. exact mode_reported. Qed.
Print Assumptions C50_mode_reported.
Example C50_case : valid (Weibull 2 3 1) /\ exists m, mode (Weibull 2 3 1) = Some m.
Proof. split; [simpl; lra|]. cbn [mode]. eauto. Qed.

(** ** C51 *)
Theorem C51_location_shifts_functions : forall d x, valid d -> let d0 := unshifted d in let g := location d in
  pdf d x = pdf d0 (x - g) /\ cdf d x = cdf d0 (x - g) /\ sf d x = sf d0 (x - g).
Proof. intros d x _. destruct (shift_functions d x) as (A & B & C & _). now repeat split. Qed.
Print Assumptions C51_location_shifts_functions.
Lemma shift_statistics d : valid d -> let d0 := unshifted d in let g := location d in
  median d = median d0 + g /\ (forall m0, mode d0 = Some m0 -> mode d = Some (m0 + g)) /\
  forall q x0 y0, 0 < q < 1 -> quantile d0 q = Ok x0 -> inverse_SF d0 q = Ok y0 -> quantile d q = Ok (x0 + g) /\ inverse_SF d q = Ok (y0 + g).
Proof.
  intros Hv d0 g. split; [now apply shift_median|]. split; [exact (shift_mode d)|].
  intros q x0 y0 Hq. unfold quantile, inverse_SF. destruct (Rlt_dec q 0); [lra|]. destruct (Rlt_dec 1 q); [lra|].
  intros H1 H2. apply Ok_inj in H1, H2. subst. destruct (shift_ppf d q Hv Hq) as [A B]. unfold d0, g. now rewrite A, B.
Qed.
Theorem C51_location_shifts_statistics : forall d, valid d -> let d0 := unshifted d in let g := location d in
  median d = median d0 + g /\ (forall m0, mode d0 = Some m0 -> mode d = Some (m0 + g)) /\
  forall q x0 y0, 0 < q < 1 -> quantile d0 q = Ok x0 -> inverse_SF d0 q = Ok y0 -> quantile d q = Ok (x0 + g) /\ inverse_SF d q = Ok (y0 + g).
Proof. exact shift_statistics. Qed.
Print Assumptions C51_location_shifts_statistics.

Lemma single_ok d x : array_ok d [x] = true -> HF (unshifted d) [x] = Ok [hf_formula (unshifted d) x] /\ CHF (unshifted d) [x] = Ok [chf_formula (unshifted d) x].
Proof.
  intros H. destruct (unshifted_single d x) as [L A]. unfold HF, CHF. rewrite A, H, !thresholded_zero by exact L. split; reflexivity.
Qed.
Lemma shift_hazards d X H C i : valid d -> HF d X = Ok H -> CHF d X = Ok C -> cut_off_safe d X -> (i < length X)%nat ->
  let x := nth i X 0 in let g := location d in
  (g < x -> array_ok d [x - g] = true -> HF (unshifted d) [x - g] = Ok [nth i H NaN] /\ CHF (unshifted d) [x - g] = Ok [nth i C NaN]) /\
  (supp_lo d = Finite g -> x < g -> nth i H NaN = Fin 0 /\ nth i C NaN = Fin 0).
Proof.
  intros Hv HH HC Hs Hi x g. unfold HF, CHF in HH, HC. destruct (array_ok d X) eqn:Hok; [|discriminate]. apply Ok_inj in HH, HC. subst H C. split.
  - intros Hx Hok1. destruct (single_ok d (x - g) Hok1) as [A B]. rewrite A, B.
    destruct (HF_above d X i Hv Hok Hs Hi Hx) as [A1 B1]. now rewrite A1, B1.
  - intros Hl Hx. now apply HF_below.
Qed.
Theorem C51_hazards_shift_partial : forall d X H C i, valid d -> HF d X = Ok H -> CHF d X = Ok C -> cut_off_safe d X -> (i < length X)%nat ->
  let x := nth i X 0 in let g := location d in
  (g < x -> array_ok d [x - g] = true -> HF (unshifted d) [x - g] = Ok [nth i H NaN] /\ CHF (unshifted d) [x - g] = Ok [nth i C NaN]) /\
  (supp_lo d = Finite g -> x < g -> nth i H NaN = Fin 0 /\ nth i C NaN = Fin 0).
Proof. exact shift_hazards. Qed.
Print Assumptions C51_hazards_shift_partial.

(** Not in any order: after an entry above the location, entries below it keep the value of
    the formula. *)
Lemma unordered_hazards : exists d X H C, valid d /\ HF d X = Ok H /\ CHF d X = Ok C /\ nth 1 X 0 < location d /\
  nth 1 H NaN = Fin 1 /\ nth 1 C NaN = Fin (- 4).
Proof.
  exists (Exponential 1 5), [10; 1]. unfold HF, CHF.
  assert (array_ok (Exponential 1 5) [10; 1] = true) as E.
  { unfold array_ok, Rltb'. simpl. destruct (Rlt_dec 10 0); [lra|]. destruct (Rlt_dec 1 0); [lra|reflexivity]. }
  rewrite E. do 2 eexists. split; [simpl; lra|]. split; [reflexivity|]. split; [reflexivity|]. split; [simpl; lra|].
  cbn [thresholded zeroised map hf_formula chf_formula]. unfold zeroise_below_gamma. destruct (Rlt_dec 0 5); [|lra]. cbn [zero_prefix]. destruct (Rlt_dec 5 10); [|lra].
  simpl. split; [reflexivity|]. f_equal. ring.
Qed.
Theorem C51_hazards_any_order_refuted : exists d X H C, valid d /\ HF d X = Ok H /\ CHF d X = Ok C /\ nth 1 X 0 < location d /\
  nth 1 H NaN = Fin 1 /\ nth 1 C NaN = Fin (- 4).
Proof. exact unordered_hazards. Qed.
Print Assumptions C51_hazards_any_order_refuted.
Example C51_case : valid (Weibull 2 3 1) /\ below_first 1 [1 / 2; 3; 2].
Proof.
  split; [simpl; lra|]. intros i j Hij Hj. destruct j as [|[|[|j]]]; simpl in *; try lia; lra.
Qed.

(** ** C52 *)
Theorem C52_scalar_agrees_partial : forall d x, valid d -> array_ok d [x] = true -> (cut_off_family d = false \/ (location d = 0 /\ x <> 0)) ->
  exists h c, HF_scalar d x = Ok (Some h) /\ HF d [x] = Ok [h] /\ CHF_scalar d x = Ok (Some c) /\ CHF d [x] = Ok [c].
Proof. exact scalar_agrees. Qed.
Print Assumptions C52_scalar_agrees_partial.

(** With a location parameter every scalar call of HF and CHF raises TypeError. *)
Lemma scalar_type_error d x : valid d -> cut_off_family d = true -> location d < x -> 0 < location d ->
  HF_scalar d x = Err TypeError /\ CHF_scalar d x = Err TypeError /\ exists h c, HF d [x] = Ok [h] /\ CHF d [x] = Ok [c].
Proof.
  intros Hv Hc Hx Hg.
  assert (forall A (v : A), scalar_threshold d v = Err TypeError) as T.
  { intros A v. unfold scalar_threshold. destruct d; simpl in *; try discriminate; destruct (Rlt_dec 0 gamma); lra || reflexivity. }
  assert (array_ok d [x] = true) as Hok.
  { apply inside_array_ok; [exact Hv|]. split; [rewrite supp_lo_location by exact Hc; exact Hx|]. destruct d; try discriminate; exact I. }
  assert (exists h c, HF d [x] = Ok [h] /\ CHF d [x] = Ok [c]) as E.
  { unfold HF, CHF. rewrite Hok. pose proof (thresholded_length d [x] (hf_formula d)) as L1. pose proof (thresholded_length d [x] (chf_formula d)) as L2.
    destruct (thresholded d [x] (map (hf_formula d) [x])) as [|h [|]]; try discriminate L1. destruct (thresholded d [x] (map (chf_formula d) [x])) as [|c [|]]; try discriminate L2. eauto. }
  destruct d; try discriminate; cbn [HF_scalar CHF_scalar]; simpl in Hx, Hg.
  - destruct Hv as (Ha & _). pose proof (scaled_pos x gamma alpha Ha Hx) as Hy. rewrite !py_pow_pos by exact Hy. cbn [bind]. rewrite !T. split; [reflexivity|]. split; [reflexivity|exact E].
  - rewrite !T. split; [reflexivity|]. split; [reflexivity|exact E].
  - destruct Hv as (Ha & _). pose proof (scaled_pos x gamma alpha Ha Hx) as Hy. rewrite !py_pow_pos by exact Hy. cbn [bind].
    pose proof (Rpower_gt_0 ((x - gamma) / alpha) beta). destruct (Req_EM_T (1 + Rpower ((x - gamma) / alpha) beta) 0); [lra|]. rewrite !T. split; [reflexivity|]. split; [reflexivity|exact E].
Qed.
Theorem C52_scalar_with_location_refuted : forall d x, valid d -> cut_off_family d = true -> location d < x -> 0 < location d ->
  HF_scalar d x = Err TypeError /\ CHF_scalar d x = Err TypeError /\ exists h c, HF d [x] = Ok [h] /\ CHF d [x] = Ok [c].
Proof. exact scalar_type_error. Qed.
Print Assumptions C52_scalar_with_location_refuted.

(** Negative scalars are not rejected, and zero may raise ZeroDivisionError. *)
Lemma scalar_negative_zero :
  (exists d x h, valid d /\ x < 0 /\ HF_scalar d x = Ok (Some (Fin h)) /\ 0 < h /\ HF d [x] = Err ValueError) /\
  (exists d, valid d /\ HF_scalar d 0 = Err ZeroDivisionError /\ HF d [0] = Ok [PInf]).
Proof.
  split.
  - exists (Exponential 1 0), (- 1), 1. cbn [HF_scalar]. unfold scalar_threshold. cbn [zeroised hf_formula]. destruct (Rlt_dec 0 0); [lra|].
    split; [simpl; lra|]. split; [lra|]. split; [reflexivity|]. split; [lra|]. unfold HF, array_ok, Rltb'. simpl. destruct (Rlt_dec (-1) 0); [reflexivity|lra].
  - exists (Weibull 1 (1 / 2) 0). split; [simpl; lra|]. cbn [HF_scalar]. replace ((0 - 0) / 1) with 0 by field. unfold py_pow.
    destruct (Rlt_dec 0 0); [lra|]. destruct (Req_EM_T 0 0); [|lra]. destruct (Rlt_dec 0 (1 / 2 - 1)); [lra|]. destruct (Req_EM_T (1 / 2 - 1) 0); [lra|].
    split; [reflexivity|]. unfold HF. assert (array_ok (Weibull 1 (1 / 2) 0) [0] = true) as ->.
    { unfold array_ok, Rltb'. simpl. destruct (Rlt_dec 0 0); [lra|reflexivity]. }
    rewrite thresholded_zero by reflexivity. cbn [map hf_formula]. replace ((0 - 0) / 1) with 0 by field. rewrite npow_zero.
    destruct (Rlt_dec 0 (1 / 2 - 1)); [lra|]. destruct (Req_EM_T (1 / 2 - 1) 0); [lra|reflexivity].
Qed.
Theorem C52_scalar_negative_and_zero_refuted :
  (exists d x h, valid d /\ x < 0 /\ HF_scalar d x = Ok (Some (Fin h)) /\ 0 < h /\ HF d [x] = Err ValueError) /\
  (exists d, valid d /\ HF_scalar d 0 = Err ZeroDivisionError /\ HF d [0] = Ok [PInf]).
Proof. exact scalar_negative_zero. Qed.
Print Assumptions C52_scalar_negative_and_zero_refuted.
Example C52_case : valid (Weibull 2 3 0) /\ array_ok (Weibull 2 3 0) [4] = true.
Proof. split; [simpl; lra|]. unfold array_ok, Rltb'. simpl. destruct (Rlt_dec 4 0); [lra|reflexivity]. Qed.
