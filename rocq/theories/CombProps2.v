(** Property C118: combined models that coincide. *)
From Coquelicot Require Import Coquelicot.
From Coq Require Import List Arith Reals Lra Lia Bool Permutation Sorted.
From Verif Require Import Base RealFacts Gauss Ext RList DistModel DistSpec DistProofs DistProofs2 DistProofs3 DistProofs5
  RepairModel CombModel CombSpec CombProofs CombProofs3.
Import ListNotations.
Open Scope R_scope.

(** ** C118 *)
(** The order in which the components are listed is irrelevant, to the curves and to the
    quantiles; for a mixture the proportions are listed in the same order. *)
Theorem C118_order_competing_risks : forall ds ds', Permutation ds ds' ->
  (forall X, cr_combine ds X = cr_combine ds' X) /\
  (forall q, cr_quantile ds q = cr_quantile ds' q /\ cr_inverse_SF ds q = cr_inverse_SF ds' q).
Proof.
  intros ds ds' P. split; [intros; now apply cr_combine_perm|]. intros q. unfold cr_quantile, cr_inverse_SF.
  rewrite (comb_grid_perm ds ds' P), (cr_combine_perm ds ds' _ P). now split.
Qed.
Print Assumptions C118_order_competing_risks.

Theorem C118_order_mixture : forall ds ps ds' ps', length ps = length ds -> length ps' = length ds' ->
  Permutation (combine ds ps) (combine ds' ps') ->
  (forall X, mix_combine ds ps X = mix_combine ds' ps' X) /\
  (forall q, mix_quantile ds ps q = mix_quantile ds' ps' q /\ mix_inverse_SF ds ps q = mix_inverse_SF ds' ps' q).
Proof.
  intros ds ps ds' ps' L L' P. split; [intros; now apply mix_combine_perm|]. intros q. unfold mix_quantile, mix_inverse_SF.
  assert (Permutation ds ds') as Pd by now apply (perm_combine_l ds ps ds' ps').
  rewrite (comb_grid_perm ds ds' Pd), (mix_combine_perm ds ps ds' ps' _ L L' P). now split.
Qed.
Print Assumptions C118_order_mixture.

(** Competing risks with a single risk are that risk. *)
Theorem C118_single_risk : forall d X, valid d -> array_ok d X = true -> exists o, cr_combine [d] X = Ok o /\
  SF d X = Ok (cr_sf o) /\ CDF d X = Ok (cr_cdf o) /\ HF d X = Ok (cr_hf o) /\
  (cut_off_safe d X -> Forall (fun x => 0 < sf d x) X -> CHF d X = Ok (cr_chf o)) /\
  (forall i p, (i < length X)%nat -> cut_off_safe d X -> hazard_defined d (nth i X 0) -> pdf d (nth i X 0) = Fin p -> nth i (cr_pdf o) 0 = p).
Proof.
  intros d X V A. destruct (cr_single d X V A) as (o & H & H1 & H2 & H3 & H4 & H5). exists o. repeat (split; [assumption|]). split.
  - intros C P. now apply cr_single_chf.
  - intros i p Hi C Hd Hp. rewrite H5. now apply cr_single_pdf.
Qed.
Print Assumptions C118_single_risk.

(** A mixture of equal components is the component, whatever the proportions. *)
Theorem C118_equal_components : forall d ps X, valid d -> rsum ps = 1 -> Forall (fun p => 0 < p) ps -> array_ok d X = true ->
  exists o, mix_combine (repeat d (length ps)) ps X = Ok o /\ PDF d X = Ok (mix_pdf o) /\ CDF d X = Ok (mix_cdf o) /\ SF d X = Ok (mix_sf o).
Proof. intros d ps X V Hs Hp A. destruct (mix_identical d ps X V Hs Hp A) as (o & H & H1 & H2 & H3 & _). exists o. auto. Qed.
Print Assumptions C118_equal_components.

(** Competing exponential risks are exponential; the rates add up. *)
Theorem C118_exponential_risks : forall rates X, rates <> [] -> Forall (fun l => 0 < l) rates -> X <> [] -> Forall (fun x => 0 <= x) X ->
  let e := Exponential (rsum rates) 0 in
  exists o, cr_combine (map (fun l => Exponential l 0) rates) X = Ok o /\
    PDF e X = Ok (map Fin (cr_pdf o)) /\ CDF e X = Ok (cr_cdf o) /\ SF e X = Ok (cr_sf o) /\ HF e X = Ok (cr_hf o) /\ CHF e X = Ok (cr_chf o).
Proof.
  intros ls X Hne Hl HXe HX e. assert (0 < rsum ls) as P by (rewrite <- (map_id ls); now apply rsum_pos_map).
  assert (valid e) as V by (split; [assumption|lra]). rewrite Forall_forall in HX.
  destruct (cr_like (map (fun l => Exponential l 0) ls) e X V eq_refl eq_refl HXe HX) as (o & H & H1 & H2 & H3 & H4 & H5).
  - apply Forall_map. revert Hl. apply Forall_impl. simpl. intros; lra.
  - apply Forall_map, Forall_forall. intros l _. simpl. destruct X as [|x X]; [contradiction|]. exists x. split; [now left|apply HX; now left].
  - apply Forall_map, Forall_forall. intros l _. right. now left.
  - reflexivity.
  - intros x. unfold e. cbn [sf]. unfold on_pos. destruct (Rlt_dec 0 ((x - 0) / (1 / rsum ls))); [apply exp_pos|lra].
  - intros x Hx. now apply exp_sf_at.
  - intros x Hx. rewrite exp_hf_at by assumption. reflexivity.
  - exists o. repeat (split; [first [assumption|apply H5]|]); try assumption.
    intros x Hx. unfold e. cbn [pdf]. destruct (Rlt_dec ((x - 0) / (1 / rsum ls)) 0); eexists; reflexivity.
Qed.
Print Assumptions C118_exponential_risks.

(** Competing Weibull risks with one shape are Weibull with that shape; alpha ** -beta adds up. *)
Theorem C118_weibull_risks : forall beta scales X, 0 < beta -> scales <> [] -> Forall (fun a => 0 < a) scales -> X <> [] -> Forall (fun x => 0 <= x) X ->
  exists alpha, 0 < alpha /\ Rpower alpha (- beta) = rsum (map (fun a => Rpower a (- beta)) scales) /\
  let e := Weibull alpha beta 0 in
  exists o, cr_combine (map (fun a => Weibull a beta 0) scales) X = Ok o /\
    CDF e X = Ok (cr_cdf o) /\ SF e X = Ok (cr_sf o) /\ HF e X = Ok (cr_hf o) /\ CHF e X = Ok (cr_chf o) /\
    (1 <= beta \/ Forall (fun x => 0 < x) X -> PDF e X = Ok (map Fin (cr_pdf o))).
Proof.
  intros b scales X Hb Hne Hs HXe HX. rewrite Forall_forall in HX.
  exists (Rpower (rsum (map (fun a => Rpower a (- b)) scales)) (- (1 / b))). split; [apply exp_pos|]. split; [now apply A_pow|].
  set (A := Rpower _ _). intros e.
  assert (0 < A) as PA by apply exp_pos. assert (valid e) as V by (simpl; lra).
  destruct (cr_like (map (fun a => Weibull a b 0) scales) e X V eq_refl eq_refl HXe HX) as (o & H & H1 & H2 & H3 & H4 & H5).
  - apply Forall_map. revert Hs. apply Forall_impl. simpl. intros; lra.
  - apply Forall_map, Forall_forall. intros l _. simpl. destruct X as [|x X]; [contradiction|]. exists x. split; [now left|apply HX; now left].
  - apply Forall_map, Forall_forall. intros l _. right. now left.
  - reflexivity.
  - intros x. unfold e. cbn [sf]. unfold on_pos. destruct (Rlt_dec 0 ((x - 0) / A)); [apply exp_pos|lra].
  - intros x Hx. now apply ss_sf.
  - intros x Hx. now apply ss_hf.
  - exists o. repeat (split; [assumption|]). intros K. apply H5. intros x Hx. unfold e. cbn [pdf].
    destruct (Rlt_dec ((x - 0) / A) 0); [eexists; reflexivity|]. destruct (Req_EM_T ((x - 0) / A) 0) as [E|E]; [|eexists; reflexivity].
    unfold at_end. destruct K as [K|K]; [destruct (Rlt_dec b 1); [lra|]; destruct (Req_EM_T b 1); eexists; reflexivity|].
    rewrite Forall_forall in K. specialize (K x Hx). rewrite Rminus_0_r in E. assert (0 < x / A) by now apply Rdiv_lt_0_compat. lra.
Qed.
Print Assumptions C118_weibull_risks.

Example C118_example :
  Permutation (combine [Normal 1 2; Weibull 3 1 0] [1 / 4; 3 / 4]) (combine [Weibull 3 1 0; Normal 1 2] [3 / 4; 1 / 4]) /\
  rsum [1 / 4; 3 / 4] = 1 /\ Forall (fun p => 0 < p) [1 / 4; 3 / 4] /\
  valid (Weibull 3 1 2) /\ array_ok (Weibull 3 1 2) [1; 2; 5] = true /\ cut_off_safe (Weibull 3 1 2) [1; 2; 5] /\ hazard_defined (Weibull 3 1 2) 5.
Proof.
  split; [apply perm_swap|]. split; [unfold rsum; simpl; lra|]. split; [repeat constructor; lra|]. split; [simpl; lra|]. split.
  - apply array_ok_true; [discriminate|right; simpl; intros x [<-|[<-|[<-|[]]]]; lra|now left].
  - split.
    + right. right. intros i j Hij. simpl in *. destruct i as [|[|[|i]]], j as [|[|[|j]]]; simpl; try lia; lra.
    + split; [|right; right; simpl; lra]. cbn [sf]. unfold on_pos. destruct (Rlt_dec 0 ((5 - 2) / 3)); [apply exp_pos|lra].
Qed.
